From Coq Require Import QArith Permutation Lia String.
From Verif Require Import PyBase L_Base M_Note L_Note M_Events M_Seq S_Seq L_Seq M_Chord L_Chord M_Graph S_Graph L_Graph L_Graph2 L_Graph3 L_Graph4 L_Graph5 L_Graph6 M_Experiments L_Experiments L_Scales M_Dataset S_Dataset.
Open Scope Z_scope.

(* no KeyError while building *)
Definition no_key {A} (r : res A) : Prop := r <> Err KeyError.
Lemma group_no_key : forall e tol a p l data k, no_key (group_notes e tol a p data k l).
Proof.
  intros e tol a p. induction l as [|n l IH]; intros data k; cbn [group_notes]; [discriminate|]. destruct (_ || _); auto. destruct (Qltb _ 0); [discriminate|]. cbv zeta. destruct (Qltb _ 0); [discriminate|]. apply IH.
Qed.
Lemma rescale_no_key : forall v, no_key (rescale v).
Proof. intros [|x [|y v]]; unfold rescale; try discriminate. cbv zeta. destruct (_ <=? 0); discriminate. Qed.
Lemma tensor_no_key : forall ty p v n k, no_key (create_tensor ty p v n k).
Proof.
  intros ty p v n k. unfold create_tensor. cbv zeta. destruct ty.
  - destruct v as [v|]; [|discriminate]. destruct (Nat.ltb _ _); [discriminate|]. destruct (_ && _); discriminate.
  - unfold one_hot. destruct (forallb _ _); [|discriminate]. cbn [bind]. destruct v as [v|]; [|discriminate]. destruct (Nat.eqb _ _); discriminate.
Qed.
Lemma each_no_key : forall A T (f : T -> A -> res unit * T), (forall t a, no_key (fst (f t a))) -> forall l t, no_key (fst (M_Graph.each f t l)).
Proof.
  intros A T f H l. induction l as [|a l IH]; intros t; cbn [M_Graph.each]; [discriminate|]. specialize (H t a). destruct (f t a) as [[u|x] t']; cbn in *; auto.
Qed.
Lemma visit_no_key : forall e c notes st ch, no_key (fst (visit e c notes st ch)).
Proof.
  intros e c notes [[b g] lst] ch. unfold visit. cbv zeta. destruct (c_velocity c).
  - pose proof (rescale_no_key (map (top_velocity notes) ch)) as R. destruct (rescale (map (top_velocity notes) ch)) as [v|x]; cbn [bind].
    + pose proof (tensor_no_key (c_type c) ch (Some v) (c_size c) 127) as T. destruct (create_tensor _ _ _ _ _) as [t|x]; cbn; [discriminate|]. intros E. apply T. injection E as ->. reflexivity.
    + cbn. intros E. apply R. injection E as ->. reflexivity.
  - pose proof (tensor_no_key (c_type c) ch None (c_size c) 127) as T. destruct (create_tensor _ _ _ _ _) as [t|x]; cbn; [discriminate|]. intros E. apply T. injection E as ->. reflexivity.
Qed.
Lemma sequence_no_key : forall e b s c g, no_key (fst (build_sequence e b s c g)).
Proof.
  intros e b s c g. unfold build_sequence. destruct (_ || _); [discriminate|]. destruct (_ <=? 0); [discriminate|]. destruct (_ || _); [discriminate|].
  pose proof (group_no_key e (compute_tolerance s 95) true 2 (q_notes s) [] 0) as G. unfold compute_data. cbv zeta. destruct (group_notes _ _ _ _ _ _ _) as [[d lg]|x]; cbn [bind].
  2:{ intros E. apply G. injection E as ->. reflexivity. }
  set (data := if c_filter c then _ else _). destruct data as [|kv data]; [discriminate|].
  assert (ST : no_key (match g with None => Ok (g_empty, None) | Some g0 => match rev (g_nodes g0) with [] => Err IndexError | (h, _) :: _ => Ok (g0, Some h) end end)).
  { destruct g as [g0|]; [|discriminate]. destruct (rev (g_nodes g0)) as [|[h a] r]; discriminate. }
  destruct (match g with None => _ | Some _ => _ end) as [[g0 lst]|x]; [|intros E; apply ST; injection E as ->; reflexivity].
  assert (H : no_key (fst (M_Graph.each (visit_group e c) (b, g0, lst) (in_key_order (kv :: data))))).
  { apply each_no_key. intros t a. unfold visit_group. apply each_no_key. intros t' a'. apply visit_no_key. }
  destruct (M_Graph.each _ _ _) as [[u|x] [[b1 g1] l1]]; cbn in *; [discriminate|]. intros E. apply H. injection E as ->. reflexivity.
Qed.
Lemma build_no_key : forall e conv b l c per, (forall g, conv g <> Some KeyError) -> no_key (fst (build e conv b l c per)).
Proof.
  intros e conv b l c per CV. unfold build. assert (T : forall l b large, no_key (fst (build_tracks e conv c per b large l))).
  { clear b l. intros l. induction l as [|s l IH]; intros b large; cbn [build_tracks]; [discriminate|]. destruct (i_drum (q_instr s)); auto. destruct (Nat.eqb _ _); auto.
    pose proof (sequence_no_key e b s c (if per then None else large)) as S. destruct (build_sequence e b s c (if per then None else large)) as [[g|x] b1]; cbn [fst] in *.
    - destruct (g_nodes g); auto. destruct per; auto. specialize (CV g). destruct (conv g); auto. intros E. apply CV. cbn in E. injection E as ->. reflexivity.
    - intros E. apply S. injection E as ->. reflexivity. }
  specialize (T l b None). destruct (build_tracks _ _ _ _ _ _ _) as [[[g|]|x] b1]; cbn [fst] in *; try discriminate.
  - specialize (CV g). destruct (conv g); cbn; [|discriminate]. intros E. apply CV. injection E as ->. reflexivity.
  - intros E. apply T. injection E as ->. reflexivity.
Qed.

(* the per-instrument phase *)
Lemma run_app : forall e b o1 o2, b_run e b (o1 ++ o2) = b_run e (b_run e b o1) o2.
Proof. intros. unfold b_run. apply fold_left_app. Qed.
Lemma take_b : forall s d p, d_b (take_graph s d p) = d_b d.
Proof. intros s d p. unfold take_graph. destruct (match s_filter s with Some _ => _ | None => _ end); reflexivity. Qed.
Lemma take_out : forall s d p, (passes s p /\ exists i, stored_as s p i /\ d_out (take_graph s d p) = d_out d ++ [i]) \/ (~ passes s p /\ d_out (take_graph s d p) = d_out d).
Proof.
  intros s d p. unfold take_graph, passes. destruct (s_filter s) as [f|].
  - destruct (f p) eqn:F; cbn [negb]; [left|right; split; auto; discriminate]. split; auto. cbv zeta. cbn [d_out]. eexists. split; [|reflexivity].
    exists (if s_split s then Some (split_masks (s_train s) (s_val s) (num_nodes p) (s_perm s (d_draws d) (num_nodes p))) else None), (d_draws d). unfold num_nodes, nodes_of. rewrite map_length. split; auto.
  - left. split; auto. cbv zeta. cbn [d_out]. eexists. split; [|reflexivity].
    exists (if s_split s then Some (split_masks (s_train s) (s_val s) (num_nodes p) (s_perm s (d_draws d) (num_nodes p))) else None), (d_draws d). unfold num_nodes, nodes_of. rewrite map_length. split; auto.
Qed.
Lemma fg_mono : forall s a b l ps, (forall h i, dict_get Z.eqb h a = Some i -> dict_get Z.eqb h b = Some i) -> file_graphs s a l ps -> file_graphs s b l ps.
Proof.
  intros s a b l ps H F. induction F as [|path r ps RD F IH|path r seqs ps RD SL F IH|path r seqs p ps RD FG F IH]; [constructor|apply fg_error; auto|eapply fg_none; eauto|]. eapply fg_one; eauto. destruct FG as [t [ts [is [A [B [C D]]]]]]. exists t, ts, is. split; auto. split; auto. split; auto.
  clear - C H. induction C; constructor; auto.
Qed.
Lemma file_step : forall s d path d' ops, env_ok (s_env s) -> s_sanity s = false -> (forall g, s_conv s g <> Some KeyError) ->
  d_b d = b_run (s_env s) b_new ops -> b_pyg (d_b d) = [] -> instrument_file s d path = (Ok tt, d') \/ instrument_file s d path = (Err KeyError, d') ->
  exists more, d_b d' = b_run (s_env s) b_new (ops ++ more) /\ b_pyg (d_b d') = [] /\
  exists ps kept items, file_graphs s (b_h2i (d_b d')) [path] ps /\ selects (passes s) ps kept /\ Forall2 (stored_as s) kept items /\ d_out d' = d_out d ++ items.
Proof.
  intros s d path d' ops EO SN CV R P H. unfold instrument_file in H. destruct (s_read s path) as [seqs|x] eqn:RD.
  2:{ assert (E : x = KeyError /\ d' = d) by (destruct H as [H|H]; [discriminate|]; injection H as -> ->; auto). destruct E as [-> ->]. exists []. rewrite app_nil_r. split; auto. split; auto.
      exists [], [], []. split; [constructor; auto; constructor|]. split; [constructor|]. split; [constructor|]. rewrite app_nil_r. reflexivity. }
  destruct (build (s_env s) (s_conv s) (d_b d) seqs (s_config s) true) as [[u|x] b1] eqn:B.
  2:{ exfalso. pose proof (build_no_key (s_env s) (s_conv s) (d_b d) seqs (s_config s) true CV) as NK. rewrite B in NK. apply NK. destruct H as [H|H]; [discriminate|]. injection H as -> _. reflexivity. }
  destruct u. pose proof (build_per_instrument _ _ _ _ _ _ EO B) as [ts [gs [T1 [T2 [T3 [T4 T5]]]]]]. rewrite P in T4. cbn [app] in T4.
  set (o1 := OBuild (s_conv s) seqs (s_config s) true). assert (R1 : b1 = b_run (s_env s) b_new (ops ++ [o1])). { rewrite run_app, <- R. cbn. rewrite B. reflexivity. }
  pose proof (run_known (s_env s) (ops ++ [o1]) b_new new_known) as KN. rewrite <- R1 in KN.
  change (2 + List.length (b_pyg b1))%nat with (S (S (List.length (b_pyg b1)))) in H.
  destruct gs as [|g gs]; cbn [map] in T4.
  - assert (ts = []) by (inversion T2; auto). subst ts. rewrite T4 in H. cbn [List.length] in H. cbn [for_graphs] in H. cbn [d_b set_b] in H. cbn [graphs_next] in H. destruct (b_h2n b1) eqn:HN; [destruct H; discriminate|].
    rewrite SN in H. cbn [andb] in H. rewrite T4 in H. destruct H as [H|H]; [|discriminate]. injection H as <-. cbn [set_b d_b d_out]. exists [o1]. split; [auto|]. split; [auto|].
    exists [], [], []. split; [eapply fg_none; eauto; constructor|]. split; [constructor|]. split; [constructor|]. rewrite app_nil_r. reflexivity.
  - destruct ts as [|t ts']; [inversion T2|]. assert (TG : graph_of_track (s_env s) (s_config s) t g) by (inversion T2; auto).
    assert (NE : b_h2n b1 <> []). { intros E. assert (for_graphs (S (S (List.length (b_pyg b1)))) s (set_b d b1) GStart = (Err ValueError, set_b d b1)). { cbn [for_graphs graphs_next d_b set_b]. rewrite E. reflexivity. } rewrite H0 in H. destruct H; discriminate. }
    destruct (next_first b1 (s_skip_label s) (mkP g None None) (map (fun g => mkP g None None) gs) KN NE T4) as [is [I1 I2]]. cbv zeta in I2. cbn [p_graph] in I1, I2.
    set (p' := mkP g (Some is) (if s_skip_label s then None else Some is)) in *. set (b2 := with_pyg b1 (p' :: map (fun g => mkP g None None) gs) (b_sub b1)) in *.
    assert (FG : for_graphs (S (S (List.length (b_pyg b1)))) s (set_b d b1) GStart = (Ok tt, set_b (take_graph s (set_b d b2) p') (with_pyg b2 [] []))).
    { rewrite T4. cbn [List.length]. cbn [for_graphs d_b set_b]. rewrite SN, I2. rewrite take_b. cbn [set_b d_b graphs_next]. reflexivity. }
    rewrite FG in H. assert (D' : d' = set_b (take_graph s (set_b d b2) p') (with_pyg b2 [] [])) by (destruct H as [H|H]; [injection H as <-; reflexivity|discriminate]). subst d'. clear H FG.
    cbn [set_b d_b d_out]. exists [o1; ONext (s_skip_label s) false GStart; ONext (s_skip_label s) false GYielded]. split; [|split; [reflexivity|]].
    + change [o1; ONext (s_skip_label s) false GStart; ONext (s_skip_label s) false GYielded] with ([o1] ++ [ONext (s_skip_label s) false GStart; ONext (s_skip_label s) false GYielded]). rewrite app_assoc, run_app, <- R1.
      cbn [b_run fold_left b_do]. rewrite I2. cbn [fst snd graphs_next]. reflexivity.
    + assert (FP : file_graphs s (b_h2i b1) [path] [p']). { eapply fg_one; [exact RD| |constructor]. exists t, ts', is. cbn [p_graph p_y p_label]. split; [exact T1|]. split; [exact TG|]. split; [exact I1|]. split; reflexivity. }
      exists [p']. destruct (take_out s (set_b d b2) p') as [[PS [i [ST OU]]]|[PS OU]]; cbn [set_b d_out] in OU; rewrite OU.
      * exists [p'], [i]. split; [exact FP|]. split; [constructor; auto; constructor|]. split; auto.
      * exists [], []. split; [exact FP|]. split; [constructor; auto; constructor|]. split; auto. rewrite app_nil_r. reflexivity.
Qed.
Lemma fg_app : forall s m l ps l' ps', file_graphs s m l ps -> file_graphs s m l' ps' -> file_graphs s m (l ++ l') (ps ++ ps').
Proof. intros s m l ps l' ps' F F'. induction F; cbn [app]; auto; [constructor; auto|eapply fg_none; eauto|eapply fg_one; eauto]. Qed.
Lemma Forall2_app' : forall A B (R : A -> B -> Prop) l1 l2 m1 m2, Forall2 R l1 m1 -> Forall2 R l2 m2 -> Forall2 R (l1 ++ l2) (m1 ++ m2).
Proof. intros. apply Forall2_app; auto. Qed.
Lemma files_step : forall s paths d d' ops, env_ok (s_env s) -> s_sanity s = false -> (forall g, s_conv s g <> Some KeyError) ->
  d_b d = b_run (s_env s) b_new ops -> b_pyg (d_b d) = [] -> per_instrument s d paths = (Ok tt, d') ->
  exists more, d_b d' = b_run (s_env s) b_new (ops ++ more) /\ b_pyg (d_b d') = [] /\
  exists ps kept items, file_graphs s (b_h2i (d_b d')) paths ps /\ selects (passes s) ps kept /\ Forall2 (stored_as s) kept items /\ d_out d' = d_out d ++ items.
Proof.
  intros s. induction paths as [|path paths IH]; intros d d' ops EO SN CV R P H; cbn [per_instrument] in H.
  - injection H as <-. exists []. rewrite app_nil_r. split; auto. split; auto. exists [], [], []. split; [constructor|]. split; [constructor|]. split; [constructor|]. rewrite app_nil_r. reflexivity.
  - assert (ST : exists d1, (instrument_file s d path = (Ok tt, d1) \/ instrument_file s d path = (Err KeyError, d1)) /\ per_instrument s d1 paths = (Ok tt, d')).
    { destruct (instrument_file s d path) as [[[]|x] d1]; [exists d1; auto|]. destruct x; try discriminate. exists d1. auto. }
    destruct ST as [d1 [ST H1]]. destruct (file_step s d path d1 ops EO SN CV R P ST) as [m1 [R1 [P1 [ps1 [k1 [i1 [F1 [S1 [A1 O1]]]]]]]]].
    destruct (IH d1 d' (ops ++ m1) EO SN CV R1 P1 H1) as [m2 [R2 [P2 [ps2 [k2 [i2 [F2 [S2 [A2 O2]]]]]]]]]. exists (m1 ++ m2). rewrite app_assoc. split; auto. split; auto.
    exists (ps1 ++ ps2), (k1 ++ k2), (i1 ++ i2). split; [|split; [apply selects_app; auto|split; [apply Forall2_app'; auto|rewrite O2, O1, app_assoc; reflexivity]]].
    change (path :: paths) with ([path] ++ paths). apply fg_app; auto. eapply fg_mono; [|exact F1]. intros h i HI. rewrite R1 in HI. rewrite R2. apply run_stable. exact HI.
Qed.
(* the whole-file phase only extends the builder's history *)
Lemma entire_run : forall s paths d d' ops, d_b d = b_run (s_env s) b_new ops -> entire s d paths = (Ok tt, d') -> exists more, d_b d' = b_run (s_env s) b_new (ops ++ more).
Proof.
  intros s. assert (F : forall d path, exists more, d_b (snd (entire_file s d path)) = b_run (s_env s) (d_b d) more).
  { intros d path. unfold entire_file. destruct (s_read s path) as [seqs|x]; [|exists []; reflexivity]. destruct (build (s_env s) (s_conv s) (d_b d) seqs (s_config s) false) as [[u|x] b1] eqn:B.
    - destruct (graphs_next b1 false false GStart) as [[[p|x] b2] st] eqn:G; cbn [snd]; exists [OBuild (s_conv s) seqs (s_config s) false; ONext false false GStart]; cbn [b_run fold_left b_do]; rewrite B; cbn [snd]; rewrite G; cbn [fst snd].
      + rewrite take_b. reflexivity.
      + reflexivity.
    - exists [OBuild (s_conv s) seqs (s_config s) false]. cbn. rewrite B. reflexivity. }
  induction paths as [|path paths IH]; intros d d' ops R H; cbn [entire] in H; [injection H as <-; exists []; rewrite app_nil_r; auto|].
  destruct (F d path) as [m1 M1]. assert (E : exists d1, snd (entire_file s d path) = d1 /\ entire s d1 paths = (Ok tt, d')).
  { destruct (entire_file s d path) as [[u|x] d1]; [exists d1; auto|]. destruct x; try discriminate; exists d1; auto. }
  destruct E as [d1 [<- H1]]. rewrite R, <- run_app in M1. destruct (IH _ d' _ M1 H1) as [m2 M2]. exists (m1 ++ m2). rewrite app_assoc. exact M2.
Qed.

(* process *)
Lemma get_set_s : forall (k : disk) n m c, dict_get String.eqb n (dict_set String.eqb m c k) = if String.eqb m n then Some c else dict_get String.eqb n k.
Proof. intros. apply (dict_get_set String.eqb String.eqb_spec). Qed.
Lemma process_ok : forall s n1 n2 ins k c ks, n1 <> n2 -> processed_file_exists k n1 n2 = false -> process s n1 n2 ins k = (Ok c, ks) ->
  exists d1 d2, per_instrument s (mkD b_new 0 []) (s_paths s) = (Ok tt, d1) /\ d_out d1 <> [] /\ entire s (mkD (d_b d1) (d_draws d1) []) (s_paths s) = (Ok tt, d2) /\
    let c1 := content_of (d_out d1) (d_b d1) in let c2 := content_of (d_out d1) (d_b d2) in
    c = (if ins then c1 else c2) /\ dict_get String.eqb n1 (last ks k) = Some c1 /\ dict_get String.eqb n2 (last ks k) = Some c2 /\
    ks = [k; dict_set String.eqb n1 c1 k; dict_set String.eqb n2 c2 (dict_set String.eqb n1 c1 k)].
Proof.
  intros s n1 n2 ins k c ks ND EX H. unfold process in H. rewrite EX in H. destruct (per_instrument s _ _) as [[[]|x] d1] eqn:P1; [|discriminate].
  destruct (d_out d1) as [|i0 r0] eqn:O; [discriminate|]. cbv zeta in H. destruct (entire s _ _) as [[[]|x] d2] eqn:E2; [|discriminate].
  apply (f_equal fst) in H as HA. apply (f_equal snd) in H as HB. cbn [fst snd] in HA, HB. clear H. exists d1, d2. split; auto. split; [rewrite O; discriminate|]. split; auto. cbv zeta. rewrite O. subst ks. cbn [last].
  set (c1 := content_of (i0 :: r0) (d_b d1)) in *. set (c2 := content_of (i0 :: r0) (d_b d2)) in *.
  assert (G1 : dict_get String.eqb n1 (dict_set String.eqb n2 c2 (dict_set String.eqb n1 c1 k)) = Some c1).
  { rewrite get_set_s. destruct (String.eqb_spec n2 n1); [congruence|]. rewrite get_set_s, String.eqb_refl. reflexivity. }
  assert (G2 : dict_get String.eqb n2 (dict_set String.eqb n2 c2 (dict_set String.eqb n1 c1 k)) = Some c2) by (rewrite get_set_s, String.eqb_refl; reflexivity).
  split; [|auto]. unfold load_processed in HA. destruct ins; [rewrite G1 in HA|rewrite G2 in HA]; apply Ok_inj in HA; auto.
Qed.
Lemma process_same : forall s n1 n2 ins k c ks, n1 <> n2 -> processed_file_exists k n1 n2 = false -> process s n1 n2 ins k = (Ok c, ks) ->
  exists c1 c2, dict_get String.eqb n1 (last ks k) = Some c1 /\ dict_get String.eqb n2 (last ks k) = Some c2 /\
    f_graphs c1 = f_graphs c2 /\ f_graphs c1 <> [] /\ c = (if ins then c1 else c2) /\
    (forall h i, dict_get Z.eqb h (f_h2i c1) = Some i -> dict_get Z.eqb h (f_h2i c2) = Some i) /\
    (forall n, n <> n1 -> n <> n2 -> dict_get String.eqb n (last ks k) = dict_get String.eqb n k).
Proof.
  intros s n1 n2 ins k c ks ND EX H. assert (INV : forall paths d ops, d_b d = b_run (s_env s) b_new ops -> exists more, d_b (snd (per_instrument s d paths)) = b_run (s_env s) b_new (ops ++ more)).
  { assert (FG : forall fuel d st, exists more, d_b (snd (for_graphs fuel s d st)) = b_run (s_env s) (d_b d) more).
    { induction fuel as [|f IHf]; intros d st; cbn [for_graphs]; [exists []; reflexivity|]. destruct (graphs_next (d_b d) (s_skip_label s) (s_sanity s) st) as [[[p|x] b1] st1] eqn:G.
      - destruct (IHf (take_graph s (set_b d b1) p) st1) as [m M]. rewrite take_b in M. exists (ONext (s_skip_label s) (s_sanity s) st :: m). rewrite M. cbn [set_b d_b b_run fold_left b_do]. rewrite G. reflexivity.
      - exists [ONext (s_skip_label s) (s_sanity s) st]. cbn [b_run fold_left b_do]. rewrite G. destruct x; reflexivity. }
    assert (F : forall d path, exists more, d_b (snd (instrument_file s d path)) = b_run (s_env s) (d_b d) more).
    { intros d path. unfold instrument_file. destruct (s_read s path) as [seqs|x]; [|exists []; reflexivity]. destruct (build (s_env s) (s_conv s) (d_b d) seqs (s_config s) true) as [[u|x] b1] eqn:B.
      - destruct (FG (2 + List.length (b_pyg b1))%nat (set_b d b1) GStart) as [m M]. exists (OBuild (s_conv s) seqs (s_config s) true :: m). rewrite M. cbn [set_b d_b b_run fold_left b_do]. rewrite B. reflexivity.
      - exists [OBuild (s_conv s) seqs (s_config s) true]. cbn. rewrite B. reflexivity. }
    induction paths as [|path paths IH]; intros d ops R; cbn [per_instrument]; [exists []; rewrite app_nil_r; auto|]. destruct (F d path) as [m1 M1]. rewrite R, <- run_app in M1.
    destruct (instrument_file s d path) as [[u|x] d1]; cbn [snd] in M1.
    - destruct (IH d1 _ M1) as [m2 M2]. exists (m1 ++ m2). rewrite app_assoc. exact M2.
    - destruct x; try (exists m1; exact M1). destruct (IH d1 _ M1) as [m2 M2]. exists (m1 ++ m2). rewrite app_assoc. exact M2. }
  destruct (process_ok s n1 n2 ins k c ks ND EX H) as [d1 [d2 [P1 [O [E2 [C [G1 [G2 K]]]]]]]]. exists (content_of (d_out d1) (d_b d1)), (content_of (d_out d1) (d_b d2)). split; auto. split; auto. split; [reflexivity|]. split; [exact O|]. split; auto. split.
  - intros h i HI. cbn [content_of f_h2i] in *. destruct (INV (s_paths s) (mkD b_new 0 []) [] eq_refl) as [m1 M1]. rewrite P1 in M1. cbn [snd app] in M1.
    destruct (entire_run s (s_paths s) (mkD (d_b d1) (d_draws d1) []) d2 m1 M1 E2) as [m2 M2]. rewrite M1 in HI. rewrite M2. apply run_stable. exact HI.
  - intros n N1 N2. rewrite K. cbn [last]. rewrite !get_set_s. destruct (String.eqb_spec n2 n); [congruence|]. destruct (String.eqb_spec n1 n); [congruence|]. reflexivity.
Qed.
Lemma process_contents : forall s n1 n2 ins k c ks, n1 <> n2 -> processed_file_exists k n1 n2 = false -> process s n1 n2 ins k = (Ok c, ks) ->
  env_ok (s_env s) -> s_sanity s = false -> (forall g, s_conv s g <> Some KeyError) ->
  (exists ps kept, file_graphs s (f_h2i c) (s_paths s) ps /\ selects (passes s) ps kept /\ Forall2 (stored_as s) kept (f_graphs c) /\ kept <> []) /\
  exists hs, NoDup hs /\ map fst (f_h2n c) = hs /\
    (forall h i, dict_get Z.eqb h (f_h2i c) = Some i <-> 1 <= i /\ nth_error hs (Z.to_nat (i - 1)) = Some h) /\
    (forall h i, dict_get Z.eqb i (f_i2h c) = Some h <-> 1 <= i /\ nth_error hs (Z.to_nat (i - 1)) = Some h).
Proof.
  intros s n1 n2 ins k c ks ND EX H EO SN CV. destruct (process_ok s n1 n2 ins k c ks ND EX H) as [d1 [d2 [P1 [O [E2 [C _]]]]]].
  destruct (files_step s (s_paths s) (mkD b_new 0 []) d1 [] EO SN CV eq_refl eq_refl P1) as [m1 [M1 [_ [ps [kept [items [F [SL [A OU]]]]]]]]]. cbn [app d_out] in *.
  destruct (entire_run s (s_paths s) (mkD (d_b d1) (d_draws d1) []) d2 m1 M1 E2) as [m2 M2].
  assert (RC : exists b ops, c = content_of (d_out d1) b /\ b = b_run (s_env s) b_new (m1 ++ ops)).
  { destruct ins; [exists (d_b d1), []; rewrite app_nil_r; auto|exists (d_b d2), m2; auto]. }
  destruct RC as [b [ops [-> RB]]]. cbn [content_of f_h2i f_graphs f_h2n f_i2h]. split.
  - exists ps, kept. split; [|split; [auto|split; [rewrite OU; auto|]]].
    + eapply fg_mono; [|exact F]. intros h i HI. rewrite M1 in HI. rewrite RB. apply run_stable. exact HI.
    + intros ->. inversion A; subst. congruence.
  - destruct (run_numbered (s_env s) (m1 ++ ops)) as [hs N]. rewrite <- RB in N. exists hs. exact N.
Qed.

(* crashes *)
Lemma process_steps : forall s n1 n2,
   (exists x, forall i k', processed_file_exists k' n1 n2 = false -> process s n1 n2 i k' = (Err x, [k'])) \/
   (exists x c1, forall i k', processed_file_exists k' n1 n2 = false -> process s n1 n2 i k' = (Err x, [k'; dict_set String.eqb n1 c1 k'])) \/
   (exists c1 c2, f_graphs c1 = f_graphs c2 /\ forall i k', processed_file_exists k' n1 n2 = false ->
      process s n1 n2 i k' = (load_processed (dict_set String.eqb n2 c2 (dict_set String.eqb n1 c1 k')) n1 n2 i, [k'; dict_set String.eqb n1 c1 k'; dict_set String.eqb n2 c2 (dict_set String.eqb n1 c1 k')])).
Proof.
  intros s n1 n2. destruct (per_instrument s (mkD b_new 0 []) (s_paths s)) as [[u|x] d1] eqn:P1.
  - destruct (d_out d1) as [|i0 r0] eqn:O.
    + left. exists IndexError. intros i k' E. unfold process. rewrite E, P1, O. reflexivity.
    + destruct (entire s (mkD (d_b d1) (d_draws d1) []) (s_paths s)) as [[u2|x] d2] eqn:E2.
      * right. right. exists (content_of (i0 :: r0) (d_b d1)), (content_of (i0 :: r0) (d_b d2)). split; [reflexivity|]. intros i k' E. unfold process. rewrite E, P1, O. cbv zeta. rewrite E2. reflexivity.
      * right. left. exists x, (content_of (i0 :: r0) (d_b d1)). intros i k' E. unfold process. rewrite E, P1, O. cbv zeta. rewrite E2. reflexivity.
  - left. exists x. intros i k' E. unfold process. rewrite E, P1. reflexivity.
Qed.
Lemma exists_iff : forall k n, exists_file k n = true <-> exists c, dict_get String.eqb n k = Some c.
Proof. intros k n. unfold exists_file. destruct (dict_get String.eqb n k); split; intros H; eauto; try discriminate. destruct H; discriminate. Qed.
Lemma crash_safe : forall s n1 n2 (ins : bool) k k', n1 <> n2 -> exists_file k n1 = false -> exists_file k n2 = false -> In k' (snd (process s n1 n2 ins k)) ->
  fst (process s n1 n2 ins k') = fst (process s n1 n2 ins k) /\
  (forall n, dict_get String.eqb n (last (snd (process s n1 n2 ins k')) k') = dict_get String.eqb n (last (snd (process s n1 n2 ins k)) k)) /\
  (processed_file_exists k' n1 n2 = true -> exists c1 c2, dict_get String.eqb n1 k' = Some c1 /\ dict_get String.eqb n2 k' = Some c2 /\ f_graphs c1 = f_graphs c2) /\
  (forall n, n <> n1 -> n <> n2 -> dict_get String.eqb n k' = dict_get String.eqb n k).
Proof.
  intros s n1 n2 ins k k' ND X1 X2 H.
  assert (EX : processed_file_exists k n1 n2 = false) by (unfold processed_file_exists; rewrite X1; reflexivity).
  assert (EX1 : forall c, processed_file_exists (dict_set String.eqb n1 c k) n1 n2 = false).
  { intros c. unfold processed_file_exists. assert (E : exists_file (dict_set String.eqb n1 c k) n2 = false). { unfold exists_file in *. rewrite get_set_s. destruct (String.eqb_spec n1 n2); [congruence|]. exact X2. } rewrite E. apply andb_false_r. }
  assert (OTH : forall c n, n <> n1 -> dict_get String.eqb n (dict_set String.eqb n1 c k) = dict_get String.eqb n k). { intros c n N. rewrite get_set_s. destruct (String.eqb_spec n1 n); [congruence|reflexivity]. }
  destruct (process_steps s n1 n2) as [[x P]|[[x [c1 P]]|[c1 [c2 [G P]]]]]; rewrite (P ins k EX) in H; cbn [snd In] in H.
  - destruct H as [<-|[]]. rewrite (P ins k EX). cbn. repeat split; auto. intros E. congruence.
  - destruct H as [<-|[<-|[]]].
    + rewrite (P ins k EX). cbn. repeat split; auto. intros E. congruence.
    + rewrite (P ins k EX), (P ins _ (EX1 c1)). cbn [fst snd last]. repeat split; auto.
      * intros n. rewrite !get_set_s. destruct (String.eqb n1 n); reflexivity.
      * intros E. rewrite EX1 in E. discriminate.
  - set (k1 := dict_set String.eqb n1 c1 k) in *. set (k2 := dict_set String.eqb n2 c2 k1) in *.
    assert (A1 : dict_get String.eqb n1 k2 = Some c1). { unfold k2, k1. rewrite get_set_s. destruct (String.eqb_spec n2 n1); [congruence|]. rewrite get_set_s, String.eqb_refl. reflexivity. }
    assert (A2 : dict_get String.eqb n2 k2 = Some c2) by (unfold k2; rewrite get_set_s, String.eqb_refl; reflexivity).
    assert (EX2 : processed_file_exists k2 n1 n2 = true) by (unfold processed_file_exists, exists_file; rewrite A1, A2; reflexivity).
    destruct H as [<-|[<-|[<-|[]]]].
    + rewrite (P ins k EX). cbn. repeat split; auto. intros E. congruence.
    + rewrite (P ins k EX), (P ins k1 (EX1 c1)). cbn [fst snd last]. fold k1 k2.
      assert (SAME : forall n, dict_get String.eqb n (dict_set String.eqb n2 c2 (dict_set String.eqb n1 c1 k1)) = dict_get String.eqb n k2).
      { intros n. unfold k2, k1. rewrite !get_set_s. destruct (String.eqb n2 n); auto. destruct (String.eqb n1 n); reflexivity. }
      split; [|split; [exact SAME|split]].
      * unfold load_processed. rewrite SAME. reflexivity.
      * intros E. unfold k1 in E. rewrite EX1 in E. discriminate.
      * intros n N1 _. apply OTH. exact N1.
    + assert (PK : process s n1 n2 ins k2 = (load_processed k2 n1 n2 ins, [k2])) by (unfold process; rewrite EX2; reflexivity). rewrite PK, (P ins k EX). cbn [fst snd last]. fold k1 k2.
      split; auto. split; auto. split; [intros _; exists c1, c2; auto|]. intros n N1 N2. unfold k2. rewrite get_set_s. destruct (String.eqb_spec n2 n); [congruence|]. apply OTH. exact N1.
Qed.
