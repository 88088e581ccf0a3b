From Coq Require Import Sorted Permutation Relations QArith Qabs Lia Lqa.
From Verif Require Import PyBase L_Base L_Sort M_Note L_Note M_Events M_Seq S_Seq L_Seq M_Chord M_Graph S_Graph L_Chord L_Chord2 L_Chord3 L_Graph L_Graph2 L_Graph3 L_Graph4 L_Graph5.
Open Scope Z_scope.

(** Every node of a stored graph has an index. *)
Definition has_index (b : builder) (h : Z) : Prop := exists i, dict_get Z.eqb h (b_h2i b) = Some i.
Definition keeps (b b' : builder) : Prop := forall h, has_index b h -> has_index b' h.
Definition reg (b : builder) (g : digraph) : Prop := forall h, In h (nodes_of g) -> has_index b h.
Lemma register_keeps : forall b h ch, keeps b (register b h ch) /\ has_index (register b h ch) h.
Proof.
  intros b h ch. unfold register. cbv zeta. destruct (dict_get Z.eqb h (b_h2i b)) as [i|] eqn:E; split; try (intros x H; exact H); try (exists i; exact E).
  - intros x [j J]. unfold has_index. cbn. rewrite (dict_get_set Z.eqb Z.eqb_spec). destruct (Z.eqb h x); eauto.
  - unfold has_index. cbn. rewrite (dict_get_set Z.eqb Z.eqb_spec), Z.eqb_refl. eauto.
Qed.
Lemma place_nodes_in : forall g lst h x names y, In y (nodes_of (place g lst h x names)) -> In y (nodes_of g) \/ y = h.
Proof.
  intros g lst h x names y H. assert (A : forall a, In y (nodes_of (add_node g h a)) -> In y (nodes_of g) \/ y = h).
  { intros a I. unfold nodes_of, add_node in I. cbn [g_nodes] in I. rewrite (dict_set_keys Z.eqb Z.eqb_spec) in I. destruct (dict_get Z.eqb h (g_nodes g)); auto. apply in_app_or in I as [I|[->|[]]]; auto. }
  assert (B : forall g' u v w, nodes_of (add_edge g' u v w) = nodes_of g') by reflexivity. assert (BU : forall u v, nodes_of (bump g u v) = nodes_of g) by (intros; unfold bump; destruct (edge_weight g u v); reflexivity).
  unfold place in H. destruct lst as [p|]; [|rewrite B in H; eauto]. destruct (has_edge g h p); [rewrite BU in H; auto|]. destruct (has_edge g p h); [rewrite BU in H; auto|]. rewrite B in H; eauto.
Qed.
Lemma each_inv : forall A T (f : T -> A -> res unit * T) (P : T -> Prop), (forall t a, P t -> P (snd (f t a))) -> forall l t, P t -> P (snd (each f t l)).
Proof.
  intros A T f P H l. induction l as [|a l IH]; intros t Pt; cbn [each]; auto. specialize (H t a Pt). destruct (f t a) as [[u|e] t']; cbn in *; auto.
Qed.
Definition reg_st (b0 : builder) (st : builder * digraph * option Z) : Prop := keeps b0 (fst (fst st)) /\ reg (fst (fst st)) (snd (fst st)).
Lemma visit_reg : forall e c notes b0 st ch, reg_st b0 st -> reg_st b0 (snd (visit e c notes st ch)).
Proof.
  intros e c notes b0 [[b g] lst] ch [K R]. unfold visit. destruct (if c_velocity c then _ else _) as [v|x]; [|split; assumption].
  destruct (register_keeps b (e_shash e ch) ch) as [K1 K2]. cbn [fst snd] in *.
  destruct (create_tensor _ _ _ _ _); cbn [fst snd]; split; try (intros h H; apply K1; apply K; exact H); cbn [fst snd].
  - intros h H. apply place_nodes_in in H as [H| ->]; [apply K1; auto|exact K2].
  - intros h H. apply K1; auto.
Qed.
Lemma sequence_reg : forall e b s c g, (match g with Some g => reg b g | None => True end) ->
  keeps b (snd (build_sequence e b s c g)) /\ (forall g', fst (build_sequence e b s c g) = Ok g' -> reg (snd (build_sequence e b s c g)) g').
Proof.
  intros e b s c g R. assert (K : keeps b b) by (intros h H; exact H). unfold build_sequence.
  destruct (_ || _); [split; [exact K|discriminate]|]. destruct (_ <=? 0); [split; [exact K|discriminate]|]. destruct (_ || _); [split; [exact K|discriminate]|].
  destruct (compute_data _ _ _ _ _ _) as [[[|d data] lg]|x]; [|  |split; [exact K|discriminate]].
  - split; [exact K|]. intros g' H. cbn [fst] in H. apply Ok_inj in H. subst g'. destruct g; [exact R|intros h []].
  - assert (ST : forall g0 lst, (match g with None => Ok (g_empty, None) | Some g0 => match rev (g_nodes g0) with [] => Err IndexError | (h, _) :: _ => Ok (g0, Some h) end end) = Ok (g0, lst) -> reg b g0).
    { intros g0 lst H. destruct g as [g1|]; [|apply Ok_inj in H; injection H as <- _; intros h []]. destruct (rev (g_nodes g1)) as [|[h a] r]; [discriminate|]. apply Ok_inj in H. injection H as <- _. exact R. }
    destruct (match g with None => _ | Some _ => _ end) as [[g0 lst]|x]; [|split; [exact K|discriminate]]. specialize (ST g0 lst eq_refl).
    assert (I : reg_st b (snd (each (visit_group e c) (b, g0, lst) (in_key_order (d :: data))))).
    { apply each_inv; [|split; assumption]. intros t a. unfold visit_group. apply each_inv. intros t' a'. apply visit_reg. }
    destruct (each (visit_group e c) (b, g0, lst) (in_key_order (d :: data))) as [[u|x] [[b1 g1] l1]]; destruct I as [I1 I2]; cbn [fst snd] in *; (split; [exact I1|]); [|discriminate].
    intros g' H. apply Ok_inj in H. subst. exact I2.
Qed.
Definition known (b : builder) : Prop := forall p, In p (b_pyg b) -> reg b (p_graph p).
Lemma keeps_trans : forall a b c, keeps a b -> keeps b c -> keeps a c.
Proof. intros a b c H1 H2 h H. auto. Qed.
Lemma reg_keeps : forall b b' g, keeps b b' -> reg b g -> reg b' g.
Proof. intros b b' g K R h H. apply K. apply R. exact H. Qed.
Lemma known_keeps : forall b b', keeps b b' -> b_pyg b' = b_pyg b -> known b -> known b'.
Proof. intros b b' K E N p H. rewrite E in H. eapply reg_keeps; eauto. Qed.
Lemma known_keep_graph : forall b g, known b -> reg b g -> known (keep_graph b g).
Proof. intros b g N R p H. cbn in H. apply in_app_or in H as [H|[<-|[]]]; [exact (N p H)|exact R]. Qed.
Lemma tracks_known : forall e conv c per l b large, known b -> (match large with Some g => reg b g | None => True end) ->
  known (snd (build_tracks e conv c per b large l)) /\ (forall g, fst (build_tracks e conv c per b large l) = Ok (Some g) -> reg (snd (build_tracks e conv c per b large l)) g).
Proof.
  intros e conv c per l. induction l as [|s l IH]; intros b large N R; cbn [build_tracks].
  - split; [exact N|]. intros g H. cbn in H. apply Ok_inj in H. subst. exact R.
  - destruct (i_drum (q_instr s)); [apply IH; auto|]. destruct (Nat.eqb _ _); [apply IH; auto|].
    pose proof (sequence_reg e b s c (if per then None else large)) as SR. pose proof (sequence_grows e b s c (if per then None else large)) as [_ [SP SS]].
    destruct (build_sequence e b s c (if per then None else large)) as [[g|x] b1]; cbn [fst snd] in *.
    + destruct SR as [K R']; [destruct per; auto|]. specialize (R' g eq_refl). assert (N1 : known b1) by (eapply known_keeps; eauto).
      destruct (g_nodes g); [apply IH; auto; destruct large; auto; apply (reg_keeps b b1); auto|].
      destruct per; [|apply IH; auto]. destruct (conv g); [split; [exact N1|discriminate]|].
      apply IH; [apply known_keep_graph; auto|]. destruct large; auto. eapply reg_keeps; [|exact R]. exact K.
    + destruct SR as [K _]; [destruct per; auto|]. split; [eapply known_keeps; eauto|discriminate].
Qed.
Lemma build_known : forall e conv b l c per, known b -> known (snd (build e conv b l c per)).
Proof.
  intros e conv b l c per N. unfold build. pose proof (tracks_known e conv c per l b None N I) as [T1 T2].
  destruct (build_tracks e conv c per b None l) as [[[g|]|x] b1]; cbn [fst snd] in *; auto. destruct (conv g); cbn [snd]; auto. apply known_keep_graph; auto.
Qed.
Lemma next_known : forall b skip sanity s, known b -> known (snd (fst (graphs_next b skip sanity s))).
Proof.
  intros b skip sanity s N. destruct s; unfold graphs_next.
  - destruct (b_h2n b) as [|kv kvs] eqn:E1; [exact N|]. destruct (sanity && _); [exact N|]. destruct (b_pyg b) as [|p r] eqn:E2; [exact N|].
    assert (G : forall p', p_graph p' = p_graph p -> known (with_pyg b (p' :: r) (b_sub b))).
    { intros p' E q Q. cbn in Q. assert (R : reg b (p_graph q)); [|exact R]. destruct Q as [<-|Q]; [rewrite E|]; apply N; rewrite E2; [left|right]; auto. }
    destruct (lookup_all _ _); cbn [fst snd]; [|exact N]. destruct (sanity && _); apply G; reflexivity.
  - intros p [].
  - exact N.
Qed.
(** keeps alone does not need the given graph to be known. *)
Lemma visit_keeps : forall e c notes st ch, keeps (fst (fst st)) (fst (fst (snd (visit e c notes st ch)))).
Proof.
  intros e c notes [[b g] lst] ch. unfold visit. destruct (if c_velocity c then _ else _) as [v|x]; [|intros h H; exact H].
  destruct (register_keeps b (e_shash e ch) ch) as [K1 K2]. destruct (create_tensor _ _ _ _ _); exact K1.
Qed.
Lemma sequence_keeps : forall e b s c g, keeps b (snd (build_sequence e b s c g)).
Proof.
  intros e b s c g. assert (K : keeps b b) by (intros h H; exact H). unfold build_sequence.
  destruct (_ || _); [exact K|]. destruct (_ <=? 0); [exact K|]. destruct (_ || _); [exact K|].
  destruct (compute_data _ _ _ _ _ _) as [[[|d data] lg]|x]; [exact K| |exact K].
  destruct (match g with None => _ | Some _ => _ end) as [[g0 lst]|x]; [|exact K].
  assert (I : keeps b (fst (fst (snd (each (visit_group e c) (b, g0, lst) (in_key_order (d :: data))))))).
  { apply (each_inv _ _ (visit_group e c) (fun t => keeps b (fst (fst t)))); [|exact K]. intros t a. unfold visit_group. apply (each_inv _ _ (visit e c a) (fun t => keeps b (fst (fst t)))).
    intros t' a' H. eapply keeps_trans; [exact H|apply visit_keeps]. }
  destruct (each (visit_group e c) (b, g0, lst) (in_key_order (d :: data))) as [[u|x] [[b1 g1] l1]]; exact I.
Qed.
Lemma do_known : forall e b o, known b -> known (b_do e b o).
Proof.
  intros e b [conv l c per|s c g|skip sanity s] N; cbn [b_do]; [apply build_known; auto| |apply next_known; auto].
  eapply known_keeps; [apply sequence_keeps| |exact N]. apply sequence_grows.
Qed.
Lemma run_known : forall e ops b, known b -> known (b_run e b ops).
Proof. intros e. induction ops as [|o ops IH]; intros b N; cbn; auto. apply IH. apply do_known. exact N. Qed.
Lemma new_known : known b_new.
Proof. intros p []. Qed.

(** graphs(). *)
Definition indices (b : builder) (g : digraph) (is : list Z) : Prop := Forall2 (fun h i => dict_get Z.eqb h (b_h2i b) = Some i) (nodes_of g) is.
Lemma lookup_known : forall m l, (forall h, In h l -> exists i, dict_get Z.eqb h m = Some i) ->
  exists is, lookup_all m l = Ok is /\ Forall2 (fun h i => dict_get Z.eqb h m = Some i) l is.
Proof.
  intros m. induction l as [|h l IH]; intros H; cbn; [exists []; auto|]. destruct (H h (or_introl eq_refl)) as [i I]. rewrite I.
  destruct IH as [is [-> F]]; [intros; apply H; right; auto|]. cbn. exists (i :: is). split; auto.
Qed.
Lemma next_first : forall b (skip : bool) p r, known b -> b_h2n b <> [] -> b_pyg b = p :: r -> exists is, indices b (p_graph p) is /\
  let p' := mkP (p_graph p) (Some is) (if skip then None else Some is) in
  graphs_next b skip false GStart = (Ok p', with_pyg b (p' :: r) (b_sub b), GYielded).
Proof.
  intros b skip p r N NE E. destruct (lookup_known (b_h2i b) (node_hashes p)) as [is [L F]].
  { intros h H. apply (N p); [rewrite E; left; auto|exact H]. }
  exists is. split; [exact F|]. cbn [graphs_next]. destruct (b_h2n b); [congruence|]. cbn [andb]. rewrite E, L. reflexivity.
Qed.
Lemma drain_first : forall b (skip : bool) fuel p r, (2 <= fuel)%nat -> known b -> b_h2n b <> [] -> b_pyg b = p :: r -> exists is, indices b (p_graph p) is /\
  graphs_drain fuel b skip false GStart = (Ok [mkP (p_graph p) (Some is) (if skip then None else Some is)], with_pyg b [] []).
Proof.
  intros b skip fuel p r FU N NE E. destruct (next_first b skip p r N NE E) as [is [I H]]. exists is. split; auto. cbv zeta in H.
  destruct fuel as [|[|f]]; [lia|lia|]. cbn [graphs_drain]. rewrite H. cbn [graphs_next]. reflexivity.
Qed.
Lemma drain_none : forall b skip fuel, (1 <= fuel)%nat -> b_h2n b <> [] -> b_pyg b = [] -> graphs_drain fuel b skip false GStart = (Ok [], b).
Proof. intros b skip [|f] FU NE E; [lia|]. cbn [graphs_drain graphs_next]. destruct (b_h2n b); [congruence|]. cbn [andb]. rewrite E. reflexivity. Qed.
Lemma drain_empty : forall b skip sanity fuel, (1 <= fuel)%nat -> b_h2n b = [] -> graphs_drain fuel b skip sanity GStart = (Err ValueError, b).
Proof. intros b skip sanity [|f] FU E; [lia|]. cbn [graphs_drain graphs_next]. rewrite E. reflexivity. Qed.
(** Operations that never resume a suspended generator keep the stored graphs. *)
Definition no_resume (o : b_op) : Prop := match o with ONext _ _ GYielded => False | _ => True end.
Definition stored (b : builder) : list digraph := map p_graph (b_pyg b).
Lemma build_stored : forall e conv b l c per, exists more, b_pyg (snd (build e conv b l c per)) = b_pyg b ++ more.
Proof.
  assert (T : forall e conv c per l b large, exists more, b_pyg (snd (build_tracks e conv c per b large l)) = b_pyg b ++ more).
  { intros e conv c per l. induction l as [|s l IH]; intros b large; cbn [build_tracks]; [exists []; rewrite app_nil_r; auto|].
    destruct (i_drum (q_instr s)); [apply IH|]. destruct (Nat.eqb _ _); [apply IH|]. pose proof (sequence_grows e b s c (if per then None else large)) as [_ [SP SS]].
    destruct (build_sequence e b s c (if per then None else large)) as [[g|x] b1]; cbn [snd] in *; [|exists []; rewrite app_nil_r; auto].
    destruct (g_nodes g); [rewrite <- SP; apply IH|]. destruct per; [|rewrite <- SP; apply IH]. destruct (conv g); [exists []; rewrite app_nil_r; auto|].
    destruct (IH (keep_graph b1 g) large) as [more M]. cbn in M. rewrite SP, <- app_assoc in M. eauto. }
  intros e conv b l c per. unfold build. destruct (T e conv c per l b None) as [more M]. destruct (build_tracks e conv c per b None l) as [[[g|]|x] b1]; cbn [snd] in *; eauto.
  destruct (conv g); cbn [snd]; eauto. exists (more ++ [mkP g None None]). unfold keep_graph. cbn. rewrite M, app_assoc. reflexivity.
Qed.
Lemma do_stored : forall e b o, no_resume o -> exists more, stored (b_do e b o) = stored b ++ more.
Proof.
  intros e b [conv l c per|s c g|skip sanity s] NR; cbn [b_do]; unfold stored.
  - destruct (build_stored e conv b l c per) as [more ->]. rewrite map_app. eauto.
  - destruct (sequence_grows e b s c g) as [_ [-> _]]. exists []. rewrite app_nil_r. auto.
  - exists []. rewrite app_nil_r. destruct s; [|destruct NR|reflexivity]. cbn [graphs_next].
    destruct (b_h2n b); [reflexivity|]. destruct (sanity && _); [reflexivity|]. destruct (b_pyg b) eqn:E; cbn; [rewrite E; reflexivity|]. destruct (lookup_all _ _); cbn; [|rewrite E; reflexivity].
    destruct (sanity && _); reflexivity.
Qed.
Lemma run_stored : forall e ops b, Forall no_resume ops -> exists more, stored (b_run e b ops) = stored b ++ more.
Proof.
  intros e. induction ops as [|o ops IH]; intros b F; cbn; [exists []; rewrite app_nil_r; auto|]. inversion F; subst. destruct (do_stored e b o) as [m1 M1]; auto.
  destruct (IH (b_do e b o)) as [m2 M2]; auto. rewrite M1, <- app_assoc in M2. eauto.
Qed.
Lemma next_same : forall e ops0 skip p1 b1 s1 ops skip', let b := b_run e b_new ops0 in
  graphs_next b skip false GStart = (Ok p1, b1, s1) -> Forall no_resume ops ->
  exists p2 b2 s2, graphs_next (b_run e b1 ops) skip' false GStart = (Ok p2, b2, s2) /\ p_graph p2 = p_graph p1.
Proof.
  intros e ops0 skip p1 b1 s1 ops skip' b H F. assert (N : known b) by (apply run_known; apply new_known). 
  destruct (run_grows e ops0 b_new [] new_numbered) as [hs NB]. cbn [app] in NB. fold b in NB.
  assert (NE : b_h2n b <> []) by (cbn [graphs_next] in H; destruct (b_h2n b); [discriminate|discriminate]).
  destruct (b_pyg b) as [|p r] eqn:E; [cbn [graphs_next andb] in H; rewrite E in H; destruct (b_h2n b); discriminate|].
  destruct (next_first b skip p r N NE E) as [is [I H']]. cbv zeta in H'. rewrite H' in H. injection H as <- <- <-. cbn [p_graph].
  set (b1 := with_pyg b _ _). assert (N1 : known b1). { pose proof (next_known b skip false GStart N) as X. rewrite H' in X. exact X. }
  assert (NB1 : numbered b1 hs) by exact NB. destruct (run_grows e ops b1 hs NB1) as [more M].
  assert (NE2 : b_h2n (b_run e b1 ops) <> []).
  { intros X. destruct M as [_ [M _]]. rewrite X in M. cbn in M. symmetry in M. apply app_eq_nil in M as [M _]. destruct NB as [_ [NB _]]. rewrite M in NB. apply map_eq_nil in NB. contradiction. }
  destruct (run_stored e ops b1 F) as [m2 M2]. unfold stored in M2. cbn [b1 with_pyg b_pyg map app] in M2.
  destruct (b_pyg (b_run e b1 ops)) as [|q r'] eqn:E2; [discriminate|]. cbn [map] in M2. injection M2 as M2 _.
  destruct (next_first (b_run e b1 ops) skip' q r' (run_known e ops b1 N1) NE2 E2) as [is' [_ H2]]. cbv zeta in H2. do 3 eexists. split; [exact H2|]. cbn. exact M2.
Qed.
(** The sanity check never lets a graph through. *)
Lemma sanity_next : forall b skip p r, known b -> b_pyg b = p :: r -> g_nodes (p_graph p) <> [] -> b_h2n b <> [] -> (forall h, In h (map fst (b_h2n b)) -> has_index b h) ->
  fst (fst (graphs_next b skip true GStart)) = Err AttributeError.
Proof.
  intros b skip p r N E G NE A. cbn [graphs_next]. destruct (b_h2n b) as [|kv kvs] eqn:E1; [congruence|]. rewrite <- E1 in *.
  rewrite (proj2 (forallb_forall _ (b_h2n b))). 2:{ intros x Hx. destruct (A (fst x) (in_map fst _ _ Hx)) as [i ->]. reflexivity. }
  cbn [andb negb]. rewrite E. destruct (lookup_known (b_h2i b) (node_hashes p)) as [is [L F]].
  { intros h H. apply (N p); [rewrite E; left; auto|exact H]. }
  rewrite L. assert (LN : List.length is = List.length (g_nodes (p_graph p))) by (transitivity (List.length (node_hashes p)); [clear - F; induction F; cbn; congruence|unfold node_hashes; apply map_length]).
  rewrite LN. destruct (g_nodes (p_graph p)); [congruence|]. reflexivity.
Qed.
