From Coq Require Import QArith Permutation Lia String Ascii.
From Verif Require Import PyBase L_Base M_Note L_Note M_Events M_Seq S_Seq L_Seq M_Chord L_Chord M_Graph S_Graph L_Graph L_Graph2 L_Graph3 L_Graph4 L_Graph5 L_Graph6 M_Experiments L_Experiments L_Scales M_Dataset S_Dataset L_Dataset2.
Open Scope Z_scope.

(* conversion *)
Lemma numbers_iff : forall l qs, numbers l = Some qs <-> Forall2 (fun v q => v = VFloat q \/ exists z, v = VInt z /\ q = inject_Z z) l qs.
Proof.
  induction l as [|v l IH]; intros qs; cbn [numbers].
  - split; intros H; [injection H as <-; constructor|inversion H; reflexivity].
  - split.
    + intros H. destruct (number v) as [q|] eqn:N; [|discriminate]. destruct (numbers l) as [s|] eqn:E; [|discriminate]. injection H as <-. constructor; [|apply IH; auto].
      destruct v; cbn in N; try discriminate; injection N as <-; eauto.
    + intros H. inversion H as [|? q ? s V F]; subst. apply IH in F. rewrite F. destruct V as [->|[z [-> ->]]]; reflexivity.
Qed.
Lemma convert_iff : forall attrs edges weights v, convert attrs edges weights = Ok v <->
  attrs <> [] /\ weights <> [] /\ Forall2 (fun a q => a = VFloat q \/ exists z, a = VInt z /\ q = inject_Z z) attrs (v_x v) /\ v_edges v = edges /\ v_weights v = weights.
Proof.
  intros attrs edges weights v. unfold convert, node_column. split.
  - intros H. destruct attrs as [|a r]; [discriminate|]. destruct (forallb is_tensor (a :: r)); [discriminate|]. destruct (numbers (a :: r)) as [qs|] eqn:N; [|discriminate]. cbn [bind] in H.
    destruct weights; [discriminate|]. apply Ok_inj in H. subst v. cbn [v_x v_edges v_weights]. apply numbers_iff in N. repeat split; auto; discriminate.
  - intros [A [W [F [E1 E2]]]]. destruct attrs as [|a r]; [congruence|]. assert (T : forallb is_tensor (a :: r) = false).
    { inversion F as [|? ? ? ? V]; subst. cbn. destruct V as [->|[z [-> _]]]; reflexivity. }
    rewrite T. apply numbers_iff in F. rewrite F. cbn [bind]. destruct weights; [congruence|]. destruct v; cbn in *; subst. reflexivity.
Qed.
Lemma conv_never : forall g v, from_midi_networkx g <> Ok v.
Proof.
  intros g v H. unfold from_midi_networkx in H. destruct (negb (same_keys g)); [discriminate|]. apply convert_iff in H as [A [_ [F _]]].
  set (l := fold_right _ _ _) in *. assert (T : forall a, In a l -> exists t, a = VTensor t).
  { unfold l. clear. induction (g_nodes g) as [|[h n] r IH]; cbn; [intros a []|]. destruct n; cbn; auto. intros a [<-|I]; eauto. }
  destruct l as [|a l]; [congruence|]. destruct (T a (or_introl eq_refl)) as [t ->]. inversion F as [|? ? ? ? V]; subst. destruct V as [V|[z [V _]]]; discriminate.
Qed.
Lemma real_conv_never : forall g, real_conv g <> None.
Proof. intros g H. unfold real_conv in H. destruct (from_midi_networkx g) as [v|x] eqn:E; [|discriminate]. eapply conv_never; eauto. Qed.
Lemma chords_conv : forall g, g_nodes g <> [] -> (forall n, In n (g_nodes g) -> exists x l h, snd n = NChord x l h) -> from_midi_networkx g = Err AttributeError.
Proof.
  intros g NE C. unfold from_midi_networkx. destruct (g_nodes g) as [|[h0 n0] r] eqn:E; [congruence|].
  assert (SK : same_keys g = true). { unfold same_keys. rewrite E. destruct (C (h0, n0) (or_introl eq_refl)) as [x [l [h Hn]]]. cbn in Hn. subst n0. apply forallb_forall. intros [h1 n1] I. destruct (C _ (or_intror I)) as [x' [l' [h' Hn]]]. cbn in *. subst. reflexivity. }
  rewrite SK. cbn [negb]. unfold convert, node_column. set (l := fold_right _ _ _).
  assert (T : forallb is_tensor l = true). { unfold l. clear. generalize ((h0, n0) :: r). intros k. induction k as [|[h n] k IH]; cbn; auto. destruct n; cbn; auto. }
  assert (NL : l <> []). { unfold l. destruct (C (h0, n0) (or_introl eq_refl)) as [x [lb [h Hn]]]. cbn in Hn. subst n0. cbn. discriminate. }
  destruct l; [congruence|]. rewrite T. reflexivity.
Qed.
Lemma built_conv : forall e b s c g' b', env_ok e -> build_sequence e b s c None = (Ok g', b') -> g_nodes g' <> [] -> from_midi_networkx g' = Err AttributeError.
Proof.
  intros e b s c g' b' EO H NE. apply chords_conv; auto. clear NE EO. unfold build_sequence in H. destruct (_ || _); [discriminate|]. destruct (_ <=? 0); [discriminate|]. destruct (_ || _); [discriminate|].
  destruct (compute_data _ _ _ _ _ _) as [[[|d data] lg]|x]; [|  |discriminate].
  - injection H as <- <-. intros n [].
  - set (P := fun st : builder * digraph * option Z => forall n, In n (g_nodes (snd (fst st))) -> exists x l h, snd n = NChord x l h).
    assert (AD : forall g h x l k n, (forall n, In n (g_nodes g) -> exists x l h, snd n = NChord x l h) -> In n (g_nodes (add_node g h (NChord x l k))) -> exists x l h, snd n = NChord x l h).
    { intros g h x l k n G I. unfold add_node in I. cbn [g_nodes] in I. revert I. induction (g_nodes g) as [|[a v] r IH]; cbn.
      - intros [<-|[]]. cbn. eauto.
      - destruct (Z.eqb a h); cbn; intros [<-|I]; cbn; eauto.
        + apply (G n). right. auto.
        + apply (G (a, v)). left. auto.
        + apply IH; auto. intros m M. apply G. right. auto. }
    assert (V : forall notes t ch, P t -> P (snd (visit e c notes t ch))).
    { intros notes [[b0 g0] lst] ch PT. unfold visit. destruct (if c_velocity c then _ else _) as [v|x]; [|exact PT]. destruct (create_tensor _ _ _ _ _) as [t|x]; [|exact PT]. unfold P in *. cbn [fst snd] in *.
      unfold place. destruct lst as [p|].
      - assert (BU : forall u v0, g_nodes (bump g0 u v0) = g_nodes g0) by (intros; unfold bump; destruct (edge_weight g0 u v0); reflexivity). destruct (has_edge g0 _ p); [rewrite BU; auto|]. destruct (has_edge g0 p _); [rewrite BU; auto|].
        intros n I. cbn [add_edge g_nodes] in I. eapply AD; eauto.
      - intros n I. cbn [add_edge g_nodes] in I. eapply AD; eauto. }
    assert (R : P (snd (M_Graph.each (visit_group e c) (b, g_empty, None) (in_key_order (d :: data))))).
    { apply each_inv; [|intros n []]. intros t a. unfold visit_group. apply each_inv. intros t' a'. apply V. }
    destruct (M_Graph.each (visit_group e c) (b, g_empty, None) (in_key_order (d :: data))) as [[u|x] [[b1 g1] l1]]; [|discriminate]. injection H as <- <-. exact R.
Qed.

(* nothing can be processed when no conversion succeeds, or with the sanity check on *)
Lemma build_pyg_same : forall e conv b l c per, (forall g, conv g <> None) -> b_pyg (snd (build e conv b l c per)) = b_pyg b.
Proof.
  intros e conv b l c per CV. unfold build. assert (T : forall l b large, b_pyg (snd (build_tracks e conv c per b large l)) = b_pyg b).
  { clear b l. intros l. induction l as [|s l IH]; intros b large; cbn [build_tracks]; auto. destruct (i_drum (q_instr s)); auto. destruct (Nat.eqb _ _); auto.
    pose proof (sequence_grows e b s c (if per then None else large)) as [_ [SP _]]. destruct (build_sequence e b s c (if per then None else large)) as [[g|x] b1]; cbn [snd] in *; auto.
    destruct (g_nodes g); [rewrite IH; auto|]. destruct per; [|rewrite IH; auto]. specialize (CV g). destruct (conv g); [auto|congruence]. }
  specialize (T l b None). destruct (build_tracks _ _ _ _ _ _ _) as [[[g|]|x] b1]; cbn [snd] in *; auto. specialize (CV g). destruct (conv g); [auto|congruence].
Qed.
Lemma quiet : forall s (I : builder -> Prop),
  (forall b l, I b -> I (snd (build (s_env s) (s_conv s) b l (s_config s) true))) ->
  (forall b, I b -> exists x b', graphs_next b (s_skip_label s) (s_sanity s) GStart = (Err x, b', GDone) /\ I b') ->
  forall paths d, I (d_b d) -> d_out (snd (per_instrument s d paths)) = d_out d.
Proof.
  intros s I HB HN. assert (F : forall d path, I (d_b d) -> I (d_b (snd (instrument_file s d path))) /\ d_out (snd (instrument_file s d path)) = d_out d).
  { intros d path ID. unfold instrument_file. destruct (s_read s path) as [seqs|x]; [|auto]. specialize (HB (d_b d) seqs ID). destruct (build _ _ _ _ _ _) as [[u|x] b1]; cbn [snd] in HB; [|auto].
    change (2 + List.length (b_pyg b1))%nat with (S (S (List.length (b_pyg b1)))). cbn [for_graphs]. cbn [d_b set_b]. destruct (HN b1 HB) as [x [b' [E I']]]. rewrite E. destruct x; auto. }
  induction paths as [|path paths IH]; intros d ID; cbn [per_instrument]; auto. destruct (F d path ID) as [F1 F2]. destruct (instrument_file s d path) as [[u|x] d1]; cbn [snd] in *.
  - rewrite IH; auto.
  - destruct x; cbn [snd]; auto. rewrite IH; auto.
Qed.
Lemma process_quiet : forall s n1 n2 ins k, processed_file_exists k n1 n2 = false -> d_out (snd (per_instrument s (mkD b_new 0 []) (s_paths s))) = [] -> exists x, process s n1 n2 ins k = (Err x, [k]).
Proof.
  intros s n1 n2 ins k EX O. unfold process. rewrite EX. destruct (per_instrument s (mkD b_new 0 []) (s_paths s)) as [[u|x] d1]; cbn [snd] in O; [rewrite O|]; eauto.
Qed.
Lemma process_no_conv : forall s n1 n2 ins k, (forall g, s_conv s g <> None) -> processed_file_exists k n1 n2 = false -> exists x, process s n1 n2 ins k = (Err x, [k]).
Proof.
  intros s n1 n2 ins k CV EX. apply process_quiet; auto. apply (quiet s (fun b => b_pyg b = [])); auto.
  - intros b l B. rewrite build_pyg_same; auto.
  - intros b B. cbn [graphs_next]. destruct (b_h2n b); [eauto|]. destruct (s_sanity s && _); [eauto|]. rewrite B. eauto.
Qed.
Definition full (b : builder) : Prop := forall p, In p (b_pyg b) -> g_nodes (p_graph p) <> [].
Lemma build_full : forall e conv b l c per, full b -> full (snd (build e conv b l c per)).
Proof.
  intros e conv b l c per FB. unfold build.
  assert (KG : forall b g, full b -> g_nodes g <> [] -> full (keep_graph b g)). { intros b0 g0 B G p I. cbn in I. apply in_app_or in I as [I|[<-|[]]]; auto. }
  assert (T : forall l b large, full b -> (match large with Some g => g_nodes g <> [] | None => True end) -> full (snd (build_tracks e conv c per b large l)) /\
     (forall g, fst (build_tracks e conv c per b large l) = Ok (Some g) -> g_nodes g <> [])).
  { clear b l FB. intros l. induction l as [|s l IH]; intros b large B L; cbn [build_tracks].
    - split; auto. intros g H. cbn in H. apply Ok_inj in H. subst. exact L.
    - destruct (i_drum (q_instr s)); [apply IH; auto|]. destruct (Nat.eqb _ _); [apply IH; auto|].
      pose proof (sequence_grows e b s c (if per then None else large)) as [_ [SP _]]. destruct (build_sequence e b s c (if per then None else large)) as [[g|x] b1]; cbn [snd fst] in *.
      + assert (B1 : full b1) by (unfold full; rewrite SP; exact B). destruct (g_nodes g) eqn:G; [apply IH; auto|]. destruct per.
        * destruct (conv g); [split; [exact B1|discriminate]|]. apply IH; auto. apply KG; auto. rewrite G. discriminate.
        * apply IH; auto. rewrite G. discriminate.
      + split; [unfold full; rewrite SP; exact B|discriminate]. }
  destruct (T l b None FB I) as [T1 T2]. destruct (build_tracks _ _ _ _ _ _ _) as [[[g|]|x] b1]; cbn [fst snd] in *; auto. destruct (conv g); auto. apply KG; auto.
Qed.
Lemma process_sanity : forall s n1 n2 ins k, s_sanity s = true -> processed_file_exists k n1 n2 = false -> exists x, process s n1 n2 ins k = (Err x, [k]).
Proof.
  intros s n1 n2 ins k SN EX. apply process_quiet; auto. apply (quiet s full); auto.
  - intros b l B. apply build_full. exact B.
  - intros b B. rewrite SN. cbn [graphs_next]. destruct (b_h2n b); [eauto|]. destruct (true && _); [eauto|]. destruct (b_pyg b) as [|pp r] eqn:E; [eauto|].
    assert (NP : g_nodes (p_graph pp) <> []) by (apply B; rewrite E; left; auto).
    destruct (lookup_all (b_h2i b) (node_hashes pp)) as [is|x] eqn:L; [|eauto].
    assert (LE : List.length is = List.length (node_hashes pp)).
    { revert is L. generalize (node_hashes pp). intros hl. induction hl as [|h hl IH]; intros is L; cbn in L; [apply Ok_inj in L; subst; auto|]. destruct (dict_get Z.eqb h (b_h2i b)); [|discriminate].
      destruct (lookup_all (b_h2i b) hl) as [is'|]; [|discriminate]. cbn in L. apply Ok_inj in L. subst is. cbn. rewrite (IH is'); auto. }
    unfold node_hashes in LE. rewrite map_length in LE. destruct (g_nodes (p_graph pp)) as [|n0 r0] eqn:GN; [congruence|]. cbn [List.length] in LE. rewrite LE. cbn [Nat.eqb negb andb]. eexists. eexists. split; [reflexivity|].
    intros q I. cbn in I. destruct I as [<-|I]; [cbn; rewrite GN; discriminate|]. apply B. rewrite E. right. exact I.
  - intros p [].
Qed.

(* names *)
Lemma app_inv_head_s : forall a b c : string, (a ++ b = a ++ c)%string -> b = c.
Proof. induction a as [|x a IH]; cbn; intros b c H; auto. injection H as H. auto. Qed.
Lemma split_us : forall a b r1 r2, has_us a = false -> has_us b = false -> (a ++ String "_" r1 = b ++ String "_" r2)%string -> a = b /\ r1 = r2.
Proof.
  induction a as [|x a IH]; intros b r1 r2 A B H; destruct b as [|y b]; cbn in *.
  - injection H as ->. auto.
  - injection H as <- _. cbn in B. discriminate.
  - injection H as -> _. discriminate.
  - injection H as -> H. apply orb_false_iff in A as [_ A]. apply orb_false_iff in B as [_ B]. destruct (IH b r1 r2 A B H) as [-> ->]. auto.
Qed.
Lemma app_pt : forall a b, (a ++ ".pt" = b ++ ".pt")%string -> a = b.
Proof.
  induction a as [|x a IH]; intros [|y b] H; auto.
  - exfalso. apply (f_equal String.length) in H. rewrite !len_app in H. cbn in H. lia.
  - exfalso. apply (f_equal String.length) in H. rewrite !len_app in H. cbn in H. lia.
  - cbn in H. injection H as -> H. f_equal. auto.
Qed.
Lemma opt_no_us : forall o, has_us (py_opt o) = false.
Proof. intros [z|]; [apply str_no_us|reflexivity]. Qed.
Lemma opt_inj : forall a b, py_opt a = py_opt b -> a = b.
Proof.
  assert (N : forall z, py_str z <> "None"%string). { intros z H. pose proof (py_int_str z) as P. rewrite H in P. discriminate P. }
  intros [a|] [b|] H; cbn in H; auto; [f_equal; apply str_inj; auto|destruct (N _ H)|symmetry in H; destruct (N _ H)].
Qed.
Lemma suffix_inj : forall fstr v s t v' s' t', (forall a b, fstr a = fstr b <-> (a == b)%Q) -> suffix fstr v s t = suffix fstr v' s' t' -> v = v' /\ s = s' /\ (t == t')%Q.
Proof.
  intros fstr v s t v' s' t' FI H. unfold suffix in H. apply app_inv_head_s in H.
  assert (B : forall b, has_us (py_bool b) = false) by (intros []; reflexivity).
  apply (split_us (py_bool v) (py_bool v') _ _ (B v) (B v')) in H as [V H]. apply app_inv_head_s in H.
  apply (split_us (py_opt s) (py_opt s') _ _ (opt_no_us s) (opt_no_us s')) in H as [S H]. apply app_inv_head_s in H. apply app_pt in H. split; [destruct v, v'; auto; discriminate|]. split; [apply opt_inj; auto|apply FI; auto].
Qed.
Lemma names_distinct : forall fstr v s t v' s' t', name_instrument fstr v s t <> name_entire fstr v' s' t'.
Proof. intros. unfold name_instrument, name_entire. cbn. discriminate. Qed.
Lemma names_iff : forall fstr v s t v' s' t', (forall a b, fstr a = fstr b <-> (a == b)%Q) ->
  (name_instrument fstr v s t = name_instrument fstr v' s' t' <-> v = v' /\ s = s' /\ (t == t')%Q) /\ (name_entire fstr v s t = name_entire fstr v' s' t' <-> v = v' /\ s = s' /\ (t == t')%Q).
Proof.
  intros fstr v s t v' s' t' FI. split; split.
  - intros H. apply app_inv_head_s in H. apply (suffix_inj fstr); auto.
  - intros [-> [-> T]]. apply FI in T. unfold name_instrument, suffix. rewrite T. reflexivity.
  - intros H. apply app_inv_head_s in H. apply (suffix_inj fstr); auto.
  - intros [-> [-> T]]. apply FI in T. unfold name_entire, suffix. rewrite T. reflexivity.
Qed.
Lemma construct_cached : forall s s' n1 n2 ins k, processed_file_exists k n1 n2 = true -> construct s n1 n2 ins k = construct s' n1 n2 ins k /\ snd (construct s n1 n2 ins k) = [k] /\
  exists c, dict_get String.eqb (if ins then n1 else n2) k = Some c /\ fst (construct s n1 n2 ins k) = Ok c.
Proof.
  intros s s' n1 n2 ins k EX. unfold construct. rewrite EX. cbn [last fst snd]. split; auto. split; auto. unfold processed_file_exists in EX. apply andb_true_iff in EX as [E1 E2]. apply exists_iff in E1 as [c1 E1]. apply exists_iff in E2 as [c2 E2].
  unfold load_processed. destruct ins; [rewrite E1|rewrite E2]; eauto.
Qed.
Lemma construct_fresh : forall s n1 n2 ins k, n1 <> n2 -> processed_file_exists k n1 n2 = false -> construct s n1 n2 ins k = process s n1 n2 ins k.
Proof.
  intros s n1 n2 ins k ND EX. unfold construct. rewrite EX. destruct (process s n1 n2 ins k) as [[c|x] ks] eqn:P; auto.
  destruct (process_ok s n1 n2 ins k c ks ND EX P) as [d1 [d2 [_ [_ [_ [C [G1 [G2 K]]]]]]]]. unfold load_processed. subst c. destruct ins; [rewrite G1|rewrite G2]; reflexivity.
Qed.
Lemma process_real : forall s n1 n2 ins k, s_conv s = real_conv -> processed_file_exists k n1 n2 = false -> exists x, process s n1 n2 ins k = (Err x, [k]).
Proof. intros s n1 n2 ins k E EX. apply process_no_conv; auto. rewrite E. exact real_conv_never. Qed.
