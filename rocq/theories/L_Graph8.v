From Coq Require Import Sorted Permutation Relations QArith Qabs Qround Lia Lqa.
From Verif Require Import PyBase L_Base L_Sort M_Note L_Note M_Events M_Seq S_Seq L_Seq M_Chord M_Graph S_Graph L_Chord L_Chord2 L_Chord3 L_Graph L_Graph2 L_Graph3 L_Graph4 L_Graph5.
Open Scope Z_scope.

(** One-hot features of pitches outside 0..126. *)
Lemma visit_onehot : forall e c notes st chunk, c_type c = OneHotAttr -> chunk <> [] ->
  ((forall p, In p chunk -> 0 <= p < 127) -> exists st', visit e c notes st chunk = (Ok tt, st')) /\
  ((exists p, In p chunk /\ ~ 0 <= p < 127) -> fst (visit e c notes st chunk) = Err RuntimeError).
Proof.
  intros e c notes [[b g] lst] chunk TY NE. unfold visit. destruct (rescale_total (map (top_velocity notes) chunk)) as [w [W1 [W2 _]]]; [destruct chunk; [congruence|discriminate]|]. rewrite map_length in W2.
  split.
  - intros P. unfold create_tensor. rewrite TY, one_hot_ok by auto. destruct (c_velocity c); [rewrite W1; cbn [bind]; rewrite map_length, W2, Nat.eqb_refl|cbn [bind]]; eauto.
  - intros [p [I P]]. unfold create_tensor. rewrite TY, (one_hot_bad 127 chunk p I P). destruct (c_velocity c); [rewrite W1|]; reflexivity.
Qed.
Lemma each_fails : forall A T (f : T -> A -> res unit * T) x (bad : A -> Prop) l, (forall a, bad a \/ ~ bad a) ->
  (forall t a, In a l -> (bad a -> fst (f t a) = Err x) /\ (~ bad a -> exists t', f t a = (Ok tt, t'))) -> (exists a, In a l /\ bad a) -> forall t, fst (each f t l) = Err x.
Proof.
  intros A T f x bad l DEC. induction l as [|a l IH]; intros H [b [I B]] t; [destruct I|]. cbn [each]. destruct (H t a (or_introl eq_refl)) as [H1 H2].
  destruct (DEC a) as [D|D].
  - specialize (H1 D). destruct (f t a) as [[u|y] t']; cbn in *; [discriminate|auto].
  - destruct (H2 D) as [t' ->]. apply IH; [intros; apply H; right; auto|]. destruct I as [->|I]; [contradiction|eauto].
Qed.
Lemma bad_dec : forall l : list Z, (exists p, In p l /\ ~ 0 <= p < 127) \/ ~ (exists p, In p l /\ ~ 0 <= p < 127).
Proof.
  intros l. destruct (forallb (fun p => (0 <=? p) && (p <? 127)) l) eqn:E.
  - right. intros [p [I P]]. rewrite forallb_forall in E. specialize (E p I). apply andb_true_iff in E as [E1 E2]. apply Z.leb_le in E1. apply Z.ltb_lt in E2. lia.
  - left. induction l as [|a l IH]; [discriminate|]. cbn in E. apply andb_false_iff in E as [E|E].
    + exists a. split; [left; auto|]. intros [P1 P2]. apply Z.leb_le in P1. apply Z.ltb_lt in P2. rewrite P1, P2 in E. discriminate.
    + destruct (IH E) as [p [I P]]. exists p. split; [right; auto|auto].
Qed.
Lemma build_onehot_fails : forall e b s c g n, env_ok e -> valid_config c -> c_type c = OneHotAttr -> c_filter c = false ->
  (forall m, In m (q_notes s) -> sounding m -> (0 <= n_start m)%Q) -> (match g with Some g => g_nodes g <> [] | None => True end) ->
  In n (q_notes s) -> sounding n -> ~ 0 <= n_pitch n < 127 -> fst (build_sequence e b s c g) = Err RuntimeError.
Proof.
  intros e b s c g n EO V TY FI N G I SD P. pose proof (valid_checks c V) as [C1 [C2 C3]]. unfold build_sequence. rewrite C1, C2, C3.
  destruct (compute_data e s (c_tolerance c) (c_filter c) true 2) as [[data lg]|x] eqn:E.
  2:{ exfalso. unfold compute_data in E. destruct (proj1 (group_total e (compute_tolerance s 95) true 2 (q_notes s) [] 0 (tol95 s)) N) as [p Pp]. rewrite Pp in E. discriminate. }
  pose proof (compute_groups e s _ _ _ _ E) as GR. cbv zeta in GR. rewrite FI in GR.
  assert (IG : exists notes, In notes (in_key_order data) /\ In n notes).
  { destruct GR as [ks [S [F [A B]]]]. pose proof (groups_keys _ false _ _ _ S F A B) as [GE _]. rewrite GE. specialize (A n I SD eq_refl).
    eexists. split; [apply in_map; exact A|]. cbn beta. apply members_In. auto. }
  destruct IG as [notes [IG1 IG2]]. destruct data as [|d data]; [destruct IG1|].
  assert (T : forall st, fst (each (visit_group e c) st (in_key_order (d :: data))) = Err RuntimeError).
  { apply each_fails with (bad := fun notes => exists p, In p (map n_pitch notes) /\ ~ 0 <= p < 127); [intros; apply bad_dec| |].
    2:{ exists notes. split; auto. exists (n_pitch n). split; auto. apply in_map. auto. }
    intros st ns Hn.
    assert (NN : ns <> []).
    { destruct GR as [ks [_ [F _]]]. clear - F Hn. induction F as [|k y ks gs [_ [H _]] F IH]; [destruct Hn|]. destruct Hn as [<-|Hn]; auto. }
    destruct V as [V1 _]. destruct (split_chord_splits e (c_size c) ns EO ltac:(lia) NN) as [_ [PI [FS _]]]. rewrite Forall_forall in FS.
    split.
    - intros [p [P1 P2]]. unfold visit_group. apply each_fails with (bad := fun chunk => exists p, In p chunk /\ ~ 0 <= p < 127); [intros; apply bad_dec| |].
      + intros t a Ha. destruct (FS a Ha) as [FA _]. destruct (visit_onehot e c ns t a TY FA) as [O1 O2]. split; [exact O2|]. intros NB. apply O1. intros q Hq. destruct (Z_le_dec 0 q), (Z_lt_dec q 127); try lia; exfalso; apply NB; exists q; split; auto; lia.
      + apply in_map_iff in P1 as [m [<- M]]. assert (X : In (n_pitch m) (List.concat (split_chord e (c_size c) ns))) by (apply PI; eauto). apply in_concat in X as [ch [X1 X2]]. exists ch. split; eauto.
    - intros NB. unfold visit_group. apply each_total. intros t a Ha. destruct (FS a Ha) as [FA _]. apply (visit_onehot e c ns t a TY FA). intros q Hq.
      assert (X : In q (List.concat (split_chord e (c_size c) ns))) by (apply in_concat; eauto). apply PI in X as [m [M <-]]. destruct (Z_le_dec 0 (n_pitch m)), (Z_lt_dec (n_pitch m) 127); try lia; exfalso; apply NB; exists (n_pitch m); (split; [apply in_map; auto|lia]). }
  destruct g as [g|].
  - destruct (rev (g_nodes g)) as [|[h a] r] eqn:R; [exfalso; apply G; rewrite <- (rev_involutive (g_nodes g)), R; reflexivity|].
    specialize (T (b, g, Some h)). destruct (each (visit_group e c) (b, g, Some h) (in_key_order (d :: data))) as [[u|y] [[b1 g1] l1]]; cbn in T |- *; [discriminate|congruence].
  - specialize (T (b, g_empty, None)). destruct (each (visit_group e c) (b, g_empty, None) (in_key_order (d :: data))) as [[u|y] [[b1 g1] l1]]; cbn in T |- *; [discriminate|congruence].
Qed.

(** Edge lists. *)
Lemma filter_src_perm : forall (ns : list Z) (es : list ((Z * Z) * Z)), NoDup ns -> (forall e, In e es -> In (fst (fst e)) ns) ->
  Permutation (flat_map (fun n => filter (fun e => fst (fst e) =? n) es) ns) es.
Proof.
  intros ns es ND. revert es. induction ns as [|n ns IH]; intros es H; cbn.
  - destruct es as [|e es]; [constructor|]. exfalso. apply (H e). left; auto.
  - inversion ND as [|n0 ns0 N1 N2]; subst.
    assert (E : flat_map (fun m => filter (fun e => fst (fst e) =? m) es) ns = flat_map (fun m => filter (fun e => fst (fst e) =? m) (filter (fun e => negb (fst (fst e) =? n)) es)) ns).
    { clear - N1. induction ns as [|m ns IH]; [reflexivity|]. cbn. rewrite IH by (intros X; apply N1; right; auto). f_equal.
      assert (m <> n) by (intros ->; apply N1; left; auto). clear - H. induction es as [|e es IH]; [reflexivity|]. cbn. destruct (Z.eqb_spec (fst (fst e)) m), (Z.eqb_spec (fst (fst e)) n); cbn; try congruence.
      - destruct (Z.eqb_spec (fst (fst e)) m); [f_equal; auto|congruence].
      - destruct (Z.eqb_spec (fst (fst e)) m); [congruence|auto]. }
    rewrite E, (IH N2). 2:{ intros e I. apply filter_In in I as [I1 I2]. destruct (H e I1) as [X|X]; auto. destruct (Z.eqb_spec (fst (fst e)) n); [discriminate|congruence]. }
    clear. induction es as [|e es IH]; [constructor|]. cbn. destruct (fst (fst e) =? n); cbn; [constructor; auto|]. rewrite <- Permutation_middle. constructor. auto.
Qed.
Lemma out_edges_perm : forall g, graph_ok g -> Permutation (out_edges g) (g_edges g).
Proof.
  intros g [N [_ [E _]]]. unfold out_edges. replace (flat_map _ (g_nodes g)) with (flat_map (fun n => filter (fun e => fst (fst e) =? n) (g_edges g)) (nodes_of g)).
  - apply filter_src_perm; auto. intros [[a b] w] I. cbn. apply E in I. tauto.
  - unfold nodes_of. clear. induction (g_nodes g) as [|x l IH]; [reflexivity|]. cbn. rewrite IH. reflexivity.
Qed.
Lemma position_nth : forall h l, In h l -> nth_error l (position h l) = Some h.
Proof.
  intros h l. induction l as [|a l IH]; intros H; [destruct H|]. cbn. destruct (Z.eqb_spec a h) as [->|N]; [reflexivity|]. cbn. apply IH. destruct H; [congruence|auto].
Qed.
Lemma edge_index_spec : forall g, graph_ok g -> List.length (edge_index g) = List.length (g_edges g) /\ List.length (edge_weights g) = List.length (g_edges g) /\
  (forall k i j w, nth_error (edge_index g) k = Some (i, j) -> nth_error (edge_weights g) k = Some w ->
     exists a b, nth_error (nodes_of g) i = Some a /\ nth_error (nodes_of g) j = Some b /\ edge_weight g a b = Some w) /\
  (forall a b w, edge_weight g a b = Some w -> exists k i j, nth_error (edge_index g) k = Some (i, j) /\ nth_error (edge_weights g) k = Some w /\
     nth_error (nodes_of g) i = Some a /\ nth_error (nodes_of g) j = Some b) /\
  NoDup (edge_index g).
Proof.
  intros g G. pose proof (out_edges_perm g G) as P. pose proof G as [N1 [N2 [N3 _]]]. unfold edge_index, edge_weights. cbv zeta. rewrite !map_length.
  assert (IN : forall x, In x (out_edges g) -> In (fst (fst x)) (nodes_of g) /\ In (snd (fst x)) (nodes_of g) /\ edge_weight g (fst (fst x)) (snd (fst x)) = Some (snd x)).
  { intros [[a b] w] I. apply (Permutation_in _ P) in I. cbn. destruct (N3 a b w I) as [A [B _]]. split; auto. split; auto. apply (dict_In_get edge_eqb edge_eqb_spec); auto. }
  split; [apply Permutation_length; auto|]. split; [apply Permutation_length; auto|]. split; [|split].
  - intros k i j w H1 H2. rewrite nth_error_map in H1, H2. destruct (nth_error (out_edges g) k) as [x|] eqn:E; [|discriminate]. cbn in H1, H2. injection H1 as <- <-. injection H2 as <-.
    destruct (IN x (nth_error_In _ _ E)) as [A [B C]]. exists (fst (fst x)), (snd (fst x)). split; [apply position_nth; auto|]. split; [apply position_nth; auto|auto].
  - intros a b w H. apply (dict_get_In edge_eqb edge_eqb_spec) in H. apply (Permutation_in _ (Permutation_sym P)) in H. destruct (IN _ H) as [A [B _]]. cbn in A, B. apply In_nth_error in H as [k K]. exists k.
    do 2 eexists. rewrite !nth_error_map, K. cbn. split; [reflexivity|]. split; [reflexivity|]. split; apply position_nth; auto.
  - assert (ND : NoDup (map fst (out_edges g))) by (eapply Permutation_NoDup; [apply Permutation_map; symmetry; exact P|auto]).
    clear - ND IN. induction (out_edges g) as [|x l IH]; [constructor|]. cbn in *. inversion ND as [|y m D1 D2]; subst. constructor; [|apply IH; auto].
    intros I. apply in_map_iff in I as [y [E I]]. injection E as E1 E2. apply D1. destruct (IN x (or_introl eq_refl)) as [A [B _]]. destruct (IN y (or_intror I)) as [A' [B' _]].
    apply position_nth in A, B, A', B'. unfold nodes_of in *. rewrite E1, A in A'. rewrite E2, B in B'. injection A' as A'. injection B' as B'.
    replace (fst x) with (fst y); [apply in_map; auto|]. destruct x as [[a b] w], y as [[a' b'] w']. cbn in *. congruence.
Qed.

(** Queries. *)
Lemma frozen_hash : forall e l, env_ok e -> exists d, Permutation d (distinct l) /\ e_shash e (frozenset e l) = e_shash e d.
Proof. intros e l [_ [O _]]. exists (frozenset e l). split; [apply O; apply distinct_NoDup|reflexivity]. Qed.
Lemma hash_set : forall e a b, env_ok e -> (forall p, In p a <-> In p b) -> e_shash e (frozenset e a) = e_shash e (frozenset e b).
Proof.
  intros e a b [_ [O HP]] H. apply HP. unfold frozenset. rewrite (O _ (distinct_NoDup a)), (O _ (distinct_NoDup b)). apply NoDup_Permutation; [apply distinct_NoDup|apply distinct_NoDup|]. intros x. rewrite !distinct_In. auto.
Qed.
Lemma has_node_iff : forall g h, has_node g h = true <-> In h (nodes_of g).
Proof.
  intros g h. unfold has_node. destruct (dict_get Z.eqb h (g_nodes g)) eqn:E.
  - split; auto. intros _. apply (dict_get_In Z.eqb Z.eqb_spec) in E. apply (in_map fst) in E. exact E.
  - split; [discriminate|]. intros I. apply (dict_get_None Z.eqb Z.eqb_spec) in E. contradiction.
Qed.
Lemma successors_spec : forall g h l, NoDup (map fst (g_edges g)) -> successors g h = Ok l -> forall x, In x l <-> edge g h x.
Proof.
  intros g h l ND H x. unfold successors in H. destruct (has_node g h); [|discriminate]. apply Ok_inj in H. subst l. rewrite in_map_iff. split.
  - intros [[[a b] w] [<- I]]. apply filter_In in I as [I E]. cbn in E. apply Z.eqb_eq in E. subst a. exists w. apply (dict_In_get edge_eqb edge_eqb_spec); auto.
  - intros [w W]. apply (dict_get_In edge_eqb edge_eqb_spec) in W. exists ((h, x), w). split; auto. apply filter_In. cbn. rewrite Z.eqb_refl. auto.
Qed.
Lemma connected_spec : forall e g u v, NoDup (map fst (g_edges g)) ->
  (In (e_shash e (frozenset e v)) (nodes_of g) -> exists r, is_connected e g u v = Ok r /\ (r = true <-> edge g (e_shash e (frozenset e v)) (e_shash e (frozenset e u)))) /\
  (~ In (e_shash e (frozenset e v)) (nodes_of g) -> is_connected e g u v = Err KeyError).
Proof.
  intros e g u v ND. unfold is_connected. destruct (successors g (e_shash e (frozenset e v))) as [l|x] eqn:E.
  - split.
    + intros _. cbn. eexists. split; [reflexivity|]. rewrite <- (successors_spec g _ l ND E). rewrite existsb_exists. split; [intros [y [I Y]]; apply Z.eqb_eq in Y; subst; auto|].
      intros I. eexists. split; [exact I|apply Z.eqb_refl].
    + intros N. exfalso. apply N. apply has_node_iff. unfold successors in E. destruct (has_node _ _); [auto|discriminate].
  - unfold successors in E. destruct (has_node g (e_shash e (frozenset e v))) eqn:HN; [discriminate|]. split.
    + intros I. apply has_node_iff in I. congruence.
    + intros _. cbn. congruence.
Qed.
Lemma get_edge_spec : forall e g u v, graph_ok g ->
  get_edge_connected e g u v = Some (e_shash e (frozenset e u), e_shash e (frozenset e v)) <-> edge g (e_shash e (frozenset e u)) (e_shash e (frozenset e v)).
Proof.
  intros e g u v [_ [_ [N _]]]. unfold get_edge_connected. cbv zeta. split.
  - destruct (_ && _) eqn:E; [|discriminate]. intros _. apply andb_true_iff in E as [_ E]. apply has_edge_iff. auto.
  - intros H. pose proof H as [w W]. apply (dict_get_In edge_eqb edge_eqb_spec) in W. destruct (N _ _ _ W) as [A [B _]]. rewrite (proj2 (has_node_iff _ _) A), (proj2 (has_node_iff _ _) B), (proj2 (has_edge_iff _ _ _) H). reflexivity.
Qed.
