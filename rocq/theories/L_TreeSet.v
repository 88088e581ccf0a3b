From Coq Require Import Lia Permutation Sorted.
From Verif Require Import PyBase L_Base M_FloatInterval M_Node M_Tree M_TreeSet S_Interval S_FloatInterval S_Tree S_TreeSet L_FloatInterval L_Tree L_Tree2 L_Tree3.
Open Scope Z_scope.

Lemma ord_null : forall i, ordinary i -> null_or_ordinary i.
Proof. right. auto. Qed.
Lemma inv_all : forall t, inv t -> Forall null_or_ordinary (all_intervals t).
Proof. intros t I. apply Forall_forall. intros i H. right. apply I. auto. Qed.
Lemma or_ok : forall t u, inv t -> inv u -> exists r, t_or t u = Ok r /\ inv r /\ forall k, In k (all_intervals r) <-> In k (all_intervals t) \/ In k (all_intervals u).
Proof.
  intros t u I J. destruct (t_init_spec (all_intervals t ++ all_intervals u)) as [r [E [IR [M _]]]].
  - intros i H. apply in_app_or in H as [H|H]; [apply I|apply J]; auto.
  - exists r. split; [exact E|]. split; [exact IR|]. intros k. rewrite M, in_app_iff. tauto.
Qed.
Lemma and_ok : forall t u, inv t -> inv u -> exists r, t_and t u = Ok r /\ inv r /\ forall k, In k (all_intervals r) <-> In k (all_intervals t) /\ In k (all_intervals u).
Proof.
  intros t u I J. destruct (t_init_spec (filter (t_contains t) (all_intervals u))) as [r [E [IR [M _]]]].
  - intros i H. apply filter_In in H as [H _]. apply J; auto.
  - exists r. split; [exact E|]. split; [exact IR|]. intros k. rewrite M, filter_In, contains_In. tauto.
Qed.
Lemma sub_ok : forall t u, inv t -> exists r, t_sub t u = Ok r /\ inv r /\ forall k, In k (all_intervals r) <-> In k (all_intervals t) /\ ~ In k (all_intervals u).
Proof.
  intros t u I. destruct (t_init_spec (filter (fun i => negb (t_contains u i)) (all_intervals t))) as [r [E [IR [M _]]]].
  - intros i H. apply filter_In in H as [H _]. apply I; auto.
  - exists r. split; [exact E|]. split; [exact IR|]. intros k. rewrite M, filter_In, negb_true_iff, contains_false. tauto.
Qed.
Lemma xor_ok : forall t u, inv t -> inv u -> exists r, t_xor t u = Ok r /\ inv r /\
  forall k, In k (all_intervals r) <-> (In k (all_intervals t) /\ ~ In k (all_intervals u)) \/ (In k (all_intervals u) /\ ~ In k (all_intervals t)).
Proof.
  intros t u I J. unfold t_xor. destruct (sub_ok t u I) as [a [A [IA MA]]]. destruct (sub_ok u t J) as [b [B [IB MB]]]. rewrite A, B. cbn [bind].
  destruct (or_ok a b IA IB) as [r [R [IR M]]]. exists r. split; [exact R|]. split; [exact IR|]. intros k. rewrite M, MA, MB. tauto.
Qed.
Lemma no_null : forall l, (forall i, In i l -> ordinary i) -> before_null l = l /\ existsb (fun i => f_end i <=? f_begin i) l = false.
Proof.
  induction l as [|i l IH]; intros H; cbn; auto. assert (O : ordinary i) by (apply H; left; auto). destruct O as [O _]. destruct (Z.leb_spec (f_end i) (f_begin i)); [lia|].
  destruct IH as [-> ->]; auto. intros k K. apply H. right. auto.
Qed.
Lemma ior_ok : forall t u, inv t -> inv u -> inv (snd (t_ior t u)) /\ fst (t_ior t u) = Ok tt /\ forall k, In k (all_intervals (snd (t_ior t u))) <-> In k (all_intervals t) \/ In k (all_intervals u).
Proof.
  intros t u I J. unfold t_ior. destruct (t_update_spec (all_intervals u) t I (inv_all u J)) as [A [B C]]. destruct (no_null (all_intervals u) (i_ord u J)) as [N1 N2]. rewrite N1 in C. rewrite N2 in B. auto.
Qed.
Lemma iand_ok : forall t u, inv t -> inv (snd (t_iand t u)) /\ fst (t_iand t u) = Ok tt /\ forall k, In k (all_intervals (snd (t_iand t u))) <-> In k (all_intervals t) /\ In k (all_intervals u).
Proof.
  intros t u I. unfold t_iand. destruct (sub_ok t u I) as [d [-> [ID M]]]. destruct (t_difference_spec (all_intervals d) t I (inv_all d ID)) as [A [B [C _]]].
  split; auto. split; auto. intros k. rewrite C, M. split; [|tauto]. intros [K N]. split; auto. destruct (t_contains u k) eqn:E; [apply contains_In; auto|]. apply contains_false in E. tauto.
Qed.
Lemma isub_ok : forall t u, inv t -> inv u -> inv (snd (t_isub t u)) /\ fst (t_isub t u) = Ok tt /\ forall k, In k (all_intervals (snd (t_isub t u))) <-> In k (all_intervals t) /\ ~ In k (all_intervals u).
Proof. intros t u I J. destruct (t_difference_spec (all_intervals u) t I (inv_all u J)) as [A [B [C _]]]. auto. Qed.
Lemma toggle_ok : forall l t, inv t -> NoDup l -> (forall i, In i l -> ordinary i) -> inv (snd (t_toggle t l)) /\ fst (t_toggle t l) = Ok tt /\
  forall k, In k (all_intervals (snd (t_toggle t l))) <-> (In k (all_intervals t) /\ ~ In k l) \/ (In k l /\ ~ In k (all_intervals t)).
Proof.
  induction l as [|i l IH]; intros t I ND O; cbn [t_toggle].
  - split; auto. split; auto. cbn. tauto.
  - inversion ND as [|? ? NI ND']; subst. assert (OI : ordinary i) by (apply O; left; auto). assert (OL : forall k, In k l -> ordinary k) by (intros; apply O; right; auto).
    assert (X : forall t', inv t' -> (forall k, In k (all_intervals t') <-> (k <> i /\ In k (all_intervals t)) \/ (k = i /\ ~ In i (all_intervals t))) ->
      inv (snd (t_toggle t' l)) /\ fst (t_toggle t' l) = Ok tt /\ forall k, In k (all_intervals (snd (t_toggle t' l))) <-> (In k (all_intervals t) /\ ~ In k (i :: l)) \/ (In k (i :: l) /\ ~ In k (all_intervals t))).
    { intros t' I' M. destruct (IH t' I' ND' OL) as [A [B C]]. split; auto. split; auto. intros k. rewrite C, M. cbn.
      assert (D : k = i \/ k <> i). { destruct (f_eqb k i) eqn:E; [left; apply f_eqb_eq; auto|right; intros ->; rewrite (proj2 (f_eqb_eq i i) eq_refl) in E; discriminate]. }
      destruct D as [->|D].
      - intuition congruence.
      - assert (D' : i <> k) by congruence. intuition congruence. }
    destruct (t_contains t i) eqn:E.
    + apply contains_In in E. destruct (t_discard_spec t i I (or_intror OI)) as [A [B [C _]]]. destruct (t_discard t i) as [o t'] eqn:TD. cbn [fst snd] in *. subst o. apply X; auto. intros k. rewrite C. intuition congruence.
    + apply contains_false in E. destruct (t_add_spec t i I (or_intror OI)) as [A [B [_ [_ C]]]]. destruct (C OI E) as [C1 _]. destruct (t_add t i) as [o t'] eqn:TA. cbn [fst snd] in *. destruct OI as [LT _]. destruct (Z.leb_spec (f_end i) (f_begin i)); [lia|]. subst o.
      apply X; auto. intros k. rewrite C1, in_app_iff. cbn. split; [intros [K|[<-|[]]]; [|tauto]|intros [[_ K]|[-> _]]; tauto]. left. split; auto. intros ->. auto.
Qed.
Lemma pop_ok : forall first t, inv t -> (forall l, l <> [] -> In (first l) l) -> inv (snd (t_pop first t)) /\
  (all_intervals t = [] -> t_pop first t = (Err KeyError, t)) /\
  (all_intervals t <> [] -> exists i, fst (t_pop first t) = Ok i /\ In i (all_intervals t) /\ forall k, In k (all_intervals (snd (t_pop first t))) <-> In k (all_intervals t) /\ k <> i).
Proof.
  intros first t I F. unfold t_pop. destruct (all_intervals t) as [|a l] eqn:E.
  - split; auto. split; auto. congruence.
  - assert (IN : In (first (a :: l)) (a :: l)) by (apply F; discriminate). assert (O : ordinary (first (a :: l))) by (apply (i_ord t I); rewrite E; auto).
    destruct (t_discard_spec t _ I (or_intror O)) as [A [B [C _]]]. destruct (t_discard t (first (a :: l))) as [o t'] eqn:TD. cbn [fst snd] in *. subst o. cbn [fst snd].
    split; auto. split; [discriminate|]. intros _. exists (first (a :: l)). rewrite E in C. auto.
Qed.
Lemma init_hist : forall ivs t, (forall i, In i ivs -> null_or_ordinary i) -> t_init ivs = Ok t -> inv t.
Proof.
  intros ivs t H E. assert (O : forall i, In i ivs -> ordinary i).
  { intros i IN. destruct (H i IN) as [N|O]; auto. exfalso. rewrite (tree_init_null ivs) in E; [discriminate|eauto]. }
  destruct (t_init_spec ivs O) as [t' [E' [I _]]]. rewrite E' in E. assert (t' = t) by congruence. subst. exact I.
Qed.
Lemma history_inv : forall t, history t -> inv t.
Proof.
  induction 1 as [ivs t N E|t o H IH O|t u r H IH H' IH' E|t u r H IH H' IH' E|t u r H IH H' IH' E|t u r H IH H' IH' E|t u H IH H' IH'|t u H IH H' IH'|t u H IH H' IH'|t u H IH H' IH'|t first H IH F].
  - eapply init_hist; eauto.
  - apply (step_inv t o (fun k => In k (all_intervals t))); auto. split; [apply IH|tauto].
  - destruct (or_ok t u IH IH') as [r' [E' [I _]]]. congruence.
  - destruct (and_ok t u IH IH') as [r' [E' [I _]]]. congruence.
  - destruct (sub_ok t u IH) as [r' [E' [I _]]]. congruence.
  - destruct (xor_ok t u IH IH') as [r' [E' [I _]]]. congruence.
  - apply ior_ok; auto.
  - apply iand_ok; auto.
  - apply isub_ok; auto.
  - apply toggle_ok; [auto|apply IH'|apply IH'].
  - apply pop_ok; auto.
Qed.

Lemma operators_ok : forall t u, history t -> history u ->
  (exists r, t_or t u = Ok r /\ history r /\ forall k, has r k <-> has t k \/ has u k) /\
  (exists r, t_and t u = Ok r /\ history r /\ forall k, has r k <-> has t k /\ has u k) /\
  (exists r, t_sub t u = Ok r /\ history r /\ forall k, has r k <-> has t k /\ ~ has u k) /\
  (exists r, t_xor t u = Ok r /\ history r /\ forall k, has r k <-> (has t k /\ ~ has u k) \/ (has u k /\ ~ has t k)).
Proof.
  intros t u H H'. pose proof (history_inv t H) as I. pose proof (history_inv u H') as J. unfold has.
  split; [|split; [|split]].
  - destruct (or_ok t u I J) as [r [E [_ M]]]. exists r. split; auto. split; [apply (h_or t u); auto|]. intros k. rewrite !contains_In. apply M.
  - destruct (and_ok t u I J) as [r [E [_ M]]]. exists r. split; auto. split; [apply (h_and t u); auto|]. intros k. rewrite !contains_In. apply M.
  - destruct (sub_ok t u I) as [r [E [_ M]]]. exists r. split; auto. split; [apply (h_sub t u); auto|]. intros k. rewrite !contains_In. apply M.
  - destruct (xor_ok t u I J) as [r [E [_ M]]]. exists r. split; auto. split; [apply (h_xor t u); auto|]. intros k. rewrite !contains_In. apply M.
Qed.
Lemma inplace_ok : forall t u, history t -> history u ->
  (fst (t_ior t u) = Ok tt /\ forall k, has (snd (t_ior t u)) k <-> has t k \/ has u k) /\
  (fst (t_iand t u) = Ok tt /\ forall k, has (snd (t_iand t u)) k <-> has t k /\ has u k) /\
  (fst (t_isub t u) = Ok tt /\ forall k, has (snd (t_isub t u)) k <-> has t k /\ ~ has u k) /\
  (fst (t_ixor t u) = Ok tt /\ forall k, has (snd (t_ixor t u)) k <-> (has t k /\ ~ has u k) \/ (has u k /\ ~ has t k)).
Proof.
  intros t u H H'. pose proof (history_inv t H) as I. pose proof (history_inv u H') as J. unfold has.
  split; [|split; [|split]].
  - destruct (ior_ok t u I J) as [_ [E M]]. split; auto. intros k. rewrite !contains_In. apply M.
  - destruct (iand_ok t u I) as [_ [E M]]. split; auto. intros k. rewrite !contains_In. apply M.
  - destruct (isub_ok t u I J) as [_ [E M]]. split; auto. intros k. rewrite !contains_In. apply M.
  - destruct (toggle_ok (all_intervals u) t I (i_nodup u J) (i_ord u J)) as [_ [E M]]. split; auto. intros k. rewrite !contains_In. apply M.
Qed.
Lemma members_ok : forall t l, history t -> lists l (has t) -> t_len t = List.length l.
Proof.
  intros t l H [ND M]. unfold t_len. apply Permutation_length. apply NoDup_Permutation; auto; [apply (history_inv t H)|]. intros k. rewrite M. unfold has. rewrite contains_In. tauto.
Qed.

Lemma history_add : forall t i, history t -> ordinary i -> fst (t_add t i) = Ok tt /\ (forall k, has (snd (t_add t i)) k <-> has t k \/ k = i) /\
  fst (t_discard t i) = Ok tt /\ (forall k, has (snd (t_discard t i)) k <-> has t k /\ k <> i) /\ t_remove t i = (Err ValueError, t).
Proof.
  intros t i H O. pose proof (history_inv t H) as I. unfold has. destruct (t_add_spec t i I (or_intror O)) as [_ [A [_ [B C]]]]. destruct (t_discard_spec t i I (or_intror O)) as [_ [D [E _]]].
  split; [rewrite A; destruct O as [LT _]; destruct (Z.leb_spec (f_end i) (f_begin i)); [lia|auto]|]. split; [|split; [auto|split; [intros k; rewrite !contains_In; apply E|apply t_remove_spec; auto; right; auto]]].
  intros k. rewrite !contains_In. destruct (t_contains t i) eqn:TC.
  - apply contains_In in TC. rewrite (B TC). cbn. split; auto. intros [K| ->]; auto.
  - apply contains_false in TC. destruct (C O TC) as [-> _]. rewrite in_app_iff. cbn. split; [intros [K|[<-|[]]]; auto|intros [K| ->]; auto].
Qed.

(* comparisons *)
Lemma nodup_le : forall (a b : list fiv), NoDup a -> incl a b -> (List.length a <= List.length b)%nat.
Proof. intros. apply NoDup_incl_length; auto. Qed.
Lemma le_iff : forall t u, inv t -> (t_le t u = true <-> forall k, has t k -> has u k).
Proof.
  intros t u I. unfold t_le, has. destruct (Nat.ltb_spec (t_len u) (t_len t)) as [L|L].
  - split; [discriminate|]. intros H. exfalso. unfold t_len in L. assert (IN : incl (all_intervals t) (all_intervals u)) by (intros k K; apply contains_In, H, contains_In; auto). pose proof (nodup_le _ _ (i_nodup t I) IN). lia.
  - rewrite forallb_forall. split; intros H k K; apply H; apply contains_In; auto.
Qed.
Lemma lt_iff : forall t u, inv t -> inv u -> (t_lt t u = true <-> (forall k, has t k -> has u k) /\ exists k, has u k /\ ~ has t k).
Proof.
  intros t u I J. unfold t_lt. rewrite andb_true_iff, (le_iff t u I), Nat.ltb_lt. split.
  - intros [L H]. split; auto. destruct (existsb (fun k => negb (t_contains t k)) (all_intervals u)) eqn:E.
    + apply existsb_exists in E as [k [K N]]. apply negb_true_iff in N. exists k. unfold has. rewrite contains_In. split; auto. congruence.
    + exfalso. assert (IN : incl (all_intervals u) (all_intervals t)).
      { intros k K. apply contains_In. destruct (t_contains t k) eqn:C; auto. exfalso. assert (X : existsb (fun k => negb (t_contains t k)) (all_intervals u) = true) by (apply existsb_exists; exists k; rewrite C; auto). congruence. }
      pose proof (nodup_le _ _ (i_nodup u J) IN). unfold t_len in L. lia.
  - intros [H [k [K N]]]. split; auto. unfold t_len. unfold has in *. rewrite contains_In in K, N.
    assert (IN : incl (k :: all_intervals t) (all_intervals u)) by (intros x [<-|X]; auto; apply contains_In, H, contains_In; auto).
    assert (ND : NoDup (k :: all_intervals t)) by (constructor; auto; apply I). pose proof (nodup_le _ _ ND IN) as L. cbn in L. lia.
Qed.
Lemma ge_le : forall t u, t_ge t u = t_le u t.
Proof. reflexivity. Qed.
Lemma gt_lt : forall t u, t_gt t u = t_lt u t.
Proof. reflexivity. Qed.
Lemma disjoint_iff : forall t u, t_isdisjoint t u = true <-> forall k, ~ (has t k /\ has u k).
Proof.
  intros t u. unfold t_isdisjoint, has. rewrite forallb_forall. split.
  - intros H k [A B]. apply contains_In in B. specialize (H k B). rewrite A in H. discriminate.
  - intros H k K. apply contains_In in K. destruct (t_contains t k) eqn:E; auto. destruct (H k). auto.
Qed.
Lemma compare_ok : forall t u, history t -> history u ->
  (t_le t u = true <-> forall k, has t k -> has u k) /\
  (t_lt t u = true <-> (forall k, has t k -> has u k) /\ exists k, has u k /\ ~ has t k) /\
  (t_ge t u = true <-> forall k, has u k -> has t k) /\
  (t_gt t u = true <-> (forall k, has u k -> has t k) /\ exists k, has t k /\ ~ has u k) /\
  (t_isdisjoint t u = true <-> forall k, ~ (has t k /\ has u k)).
Proof.
  intros t u H H'. pose proof (history_inv t H) as I. pose proof (history_inv u H') as J.
  split; [apply le_iff; auto|]. split; [apply lt_iff; auto|]. split; [rewrite ge_le; apply le_iff; auto|]. split; [rewrite gt_lt; apply lt_iff; auto|apply disjoint_iff].
Qed.
Lemma pop_hist : forall first t, history t -> (forall l, l <> [] -> In (first l) l) ->
  ((forall k, ~ has t k) -> t_pop first t = (Err KeyError, t)) /\
  ((exists k, has t k) -> exists i, fst (t_pop first t) = Ok i /\ has t i /\ forall k, has (snd (t_pop first t)) k <-> has t k /\ k <> i).
Proof.
  intros first t H F. destruct (pop_ok first t (history_inv t H) F) as [_ [A B]]. unfold has. split.
  - intros N. apply A. destruct (all_intervals t) as [|k l] eqn:E; auto. exfalso. apply (N k). apply contains_In. rewrite E. left. auto.
  - intros [k K]. apply contains_In in K. destruct B as [i [P [Q R]]]; [intros E; rewrite E in K; destruct K|]. exists i. split; auto. split; [apply contains_In; auto|]. intros x. rewrite !contains_In. apply R.
Qed.

(* named updates *)
Lemma removes_err : forall t l, inv t -> (forall i, In i l -> ordinary i) -> t_removes t l = match l with [] => (Ok tt, t) | _ => (Err ValueError, t) end.
Proof. intros t [|i l] I O; cbn [t_removes]; auto. rewrite t_remove_spec; auto. right. apply O. left. auto. Qed.
Lemma intersection_ok : forall t u, history t -> history u ->
  ((forall k, has t k -> has u k) -> t_intersection_update t u = (Ok tt, t)) /\
  ((exists k, has t k /\ ~ has u k) -> t_intersection_update t u = (Err ValueError, t)).
Proof.
  intros t u H H'. pose proof (history_inv t H) as I. unfold t_intersection_update. set (l := filter (fun i => negb (t_contains u i)) (all_intervals t)).
  assert (M : forall k, In k l <-> has t k /\ ~ has u k). { intros k. unfold l, has. rewrite filter_In, negb_true_iff, contains_false, !contains_In. tauto. }
  rewrite removes_err; [|auto|intros i IN; unfold l in IN; apply filter_In in IN as [IN _]; apply I; auto]. split.
  - intros S1. destruct l as [|k l'] eqn:E; auto. exfalso. destruct (proj1 (M k)) as [A B]; [left; auto|]. auto.
  - intros [k K]. apply M in K. destruct l; [destruct K|reflexivity].
Qed.
Lemma cancel_ok : forall t, inv t -> forall mine other, (forall i, In i mine -> ordinary i) ->
  t_cancel t mine other = if existsb (fun i => set_mem i other) mine then (Err ValueError, t, other) else (Ok tt, t, other).
Proof.
  intros t I. induction mine as [|i mine IH]; intros other O; cbn [t_cancel existsb]; auto. destruct (set_mem i other); cbn [orb].
  - rewrite t_remove_spec; auto. right. apply O. left. auto.
  - apply IH. intros k K. apply O. right. auto.
Qed.
Lemma symmetric_ok : forall t u, history t -> history u ->
  ((forall k, ~ (has t k /\ has u k)) -> fst (t_symmetric_difference_update t u) = Ok tt /\ forall k, has (snd (t_symmetric_difference_update t u)) k <-> has t k \/ has u k) /\
  ((exists k, has t k /\ has u k) -> t_symmetric_difference_update t u = (Err ValueError, t)).
Proof.
  intros t u H H'. pose proof (history_inv t H) as I. pose proof (history_inv u H') as J. unfold t_symmetric_difference_update. rewrite cancel_ok; [|auto|apply I].
  destruct (existsb (fun i => set_mem i (all_intervals u)) (all_intervals t)) eqn:E.
  - split; [|auto]. intros N. exfalso. apply existsb_exists in E as [k [K1 K2]]. apply (N k). unfold has. rewrite !contains_In. apply set_mem_In in K2. auto.
  - split.
    + intros _. destruct (ior_ok t u I J) as [_ [A B]]. unfold t_ior in *. split; auto. intros k. unfold has. rewrite !contains_In. apply B.
    + intros [k [K1 K2]]. exfalso. unfold has in *. apply contains_In in K1. assert (X : existsb (fun i => set_mem i (all_intervals u)) (all_intervals t) = true) by (apply existsb_exists; eauto). congruence.
Qed.

(* touched *)
Lemma touched_nil : forall ops, Forall op_ok ops -> is_nil (top_node (t_run t_empty ops)) = negb (touched ops).
Proof.
  assert (G : forall ops t b, inv t -> Forall op_ok ops -> is_nil (top_node t) = negb b -> is_nil (top_node (t_run t ops)) = negb (fold_left touched_after ops b)).
  { induction ops as [|o ops IH]; intros t b I F E; cbn [t_run fold_left]; auto. inversion F as [|? ? O F']; subst. unfold t_run in IH. apply IH; auto.
    - apply (step_inv t o (fun k => In k (all_intervals t))); auto. split; [apply I|tauto].
    - assert (NN : forall t' x, inv t' -> In x (all_intervals t') -> is_nil (top_node t') = false).
      { intros t' x I' X. apply (i_incl t' I') in X. destruct (top_node t'); [destruct X|reflexivity]. }
      assert (AD : forall t b i, inv t -> null_or_ordinary i -> is_nil (top_node t) = negb b -> is_nil (top_node (snd (t_add t i))) = negb (b || (f_begin i <? f_end i))).
      { clear - NN. intros t b i I O E. destruct (t_add_spec t i I O) as [IA [_ [B [C D]]]]. destruct (Z.ltb_spec (f_begin i) (f_end i)) as [L|L].
        - rewrite orb_true_r. cbn. apply (NN _ i); auto. destruct (t_contains t i) eqn:TC; [apply contains_In in TC; rewrite C; auto|]. apply contains_false in TC. destruct O as [O|O]; [lia|]. destruct (D O TC) as [-> _]. apply in_or_app. right. left. auto.
        - rewrite B by lia. rewrite orb_false_r. auto. }
      assert (UP : forall l t b, inv t -> Forall null_or_ordinary l -> is_nil (top_node t) = negb b -> is_nil (top_node (snd (t_update t l))) = negb (b || match l with i :: _ => f_begin i <? f_end i | [] => false end)).
      { clear - AD NN. induction l as [|i l IH]; intros t b I F E; cbn [t_update]; [rewrite orb_false_r; auto|]. inversion F as [|? ? O F']; subst. pose proof (AD t b i I O E) as A. destruct (t_add_spec t i I O) as [IA [FA _]].
        destruct (t_add t i) as [o t'] eqn:TA. cbn [fst snd] in *. subst o. destruct (Z.leb_spec (f_end i) (f_begin i)) as [L|L]; cbn [snd]; [exact A|]. rewrite (IH t' _ IA F' A).
        destruct (Z.ltb_spec (f_begin i) (f_end i)); [|lia]. rewrite !orb_true_r. reflexivity. }
      assert (MG : forall f, is_nil (top_node (snd (t_merge_with f t))) = is_nil (top_node t)).
      { intros f. destruct (t_merge_spec f t I) as [A [B _]]. destruct (all_intervals t) as [|x l] eqn:AL.
        - unfold t_merge_with. rewrite AL. reflexivity.
        - assert (X : In x (all_intervals t)) by (rewrite AL; left; auto). rewrite (NN t x I X). apply (NN _ x); auto. apply B. left. auto. }
      destruct o as [i|l|i|l|i| |s| |d s]; cbn [t_step touched_after op_ok] in *.
      + apply AD; auto.
      + apply UP; auto.
      + destruct (t_discard_spec t i I O) as [_ [_ [_ [-> _]]]]. auto.
      + destruct (t_difference_spec l t I O) as [_ [_ [_ ->]]]. auto.
      + rewrite t_remove_spec; auto.
      + reflexivity.
      + unfold t_merge_overlaps. rewrite MG. auto.
      + unfold t_merge_equals. rewrite MG. auto.
      + unfold t_merge_neighbors. rewrite MG. auto. }
  intros ops F. unfold touched. apply G; auto using inv_empty.
Qed.
Lemma zclose_sym : forall a b, zclose a b = zclose b a.
Proof. intros a b. unfold zclose. f_equal; lia. Qed.
Lemma calm_search : forall n p, calm n -> nd_search n p = [].
Proof.
  induction n as [|x s l IHl r IHr d b]; intros p H; cbn [nd_search]; auto. apply calm_node in H as [H1 [H2 H3]].
  assert (E : filter (fun k => iv_isclose p (f_begin k) && iv_isclose p (f_end k)) s = []).
  { clear - H3. induction s as [|i s IH]; cbn; auto. assert (O : ordinary i) by (apply H3; left; auto). pose proof (ordinary_no_hit i (f_end p) O) as N. unfold f_contains_point in N. unfold iv_isclose at 1 2.
    rewrite (zclose_sym (f_end p) (f_begin i)). rewrite N. apply IH. intros k K. apply H3. right. auto. }
  rewrite E. cbn. rewrite IHl, IHr by auto. destruct (_ && _); auto. destruct (_ && _); auto.
Qed.

Lemma fresh_ranges : forall ops, Forall op_ok ops -> touched ops = false -> let t := t_run t_empty ops in
  (forall k, ~ has t k) /\ t_verify t = Ok tt /\
  forall b e, t_at_number t b = Ok [] /\ t_overlap_numbers t b e = Ok [] /\ t_envelop t b e = Ok [] /\
    t_remove_overlap t b None = (Ok tt, t) /\ t_remove_overlap t b (Some e) = (Ok tt, t) /\ t_remove_envelop t b e = (Ok tt, t) /\ t_chop t b e = (Ok tt, t) /\ t_slice t b = (Ok tt, t).
Proof.
  intros ops F T t. destruct (run_empty ops F) as [I _]. fold t in I. pose proof (touched_nil ops F) as N. rewrite T in N. cbn [negb] in N. fold t in N.
  assert (A : all_intervals t = []). { destruct (all_intervals t) as [|x l] eqn:E; auto. exfalso. assert (X : In x (all_intervals t)) by (rewrite E; left; auto). apply (i_incl t I) in X. destruct (top_node t); [destruct X|discriminate]. }
  assert (B : bounds t = []). { destruct (bounds t) as [|[k n] r] eqn:E; auto. exfalso. pose proof (i_bounds t I) as [SB CB]. rewrite E in SB, CB. specialize (CB k). cbn [bt_get] in CB. rewrite Z.eqb_refl in CB. rewrite A in CB. cbn in CB. discriminate. }
  split; [|split].
  - intros k K. apply contains_In in K. rewrite A in K. destruct K.
  - unfold t_verify. rewrite A, B, N. reflexivity.
  - intros b e. assert (AT : forall p, t_at_number t p = Ok []) by (intros p; unfold t_at_number; rewrite N; auto). assert (OV : t_overlap_numbers t b e = Ok []) by (unfold t_overlap_numbers; rewrite N; auto). assert (EN : t_envelop t b e = Ok []) by (unfold t_envelop; rewrite N; auto).
    split; [auto|]. split; [auto|]. split; [auto|]. unfold t_remove_overlap, t_remove_envelop, t_remove_all, t_chop, t_slice. rewrite !AT, OV. cbn [bind filter pieces app]. unfold t_remove_envelop, t_remove_all. rewrite EN. cbn. auto.
Qed.
Lemma used_ranges : forall ops, Forall op_ok ops -> touched ops = true -> let t := t_run t_empty ops in
  (t_verify t = Err NameError \/ t_verify t = Err AssertionError) /\
  forall b e, t_at_number t b = Err AttributeError /\ t_remove_overlap t b None = (Err AttributeError, t) /\ t_chop t b e = (Err AttributeError, t) /\ t_slice t b = (Err AttributeError, t) /\
    (b < e -> t_overlap_numbers t b e = Err AttributeError /\ t_envelop t b e = Err AttributeError /\ t_remove_overlap t b (Some e) = (Err AttributeError, t) /\ t_remove_envelop t b e = (Err AttributeError, t)) /\
    (e <= b -> t_overlap_numbers t b e = Ok [] /\ t_envelop t b e = Ok [] /\ t_remove_overlap t b (Some e) = (Ok tt, t) /\ t_remove_envelop t b e = (Ok tt, t)).
Proof.
  intros ops F T t. pose proof (touched_nil ops F) as N. rewrite T in N. cbn [negb] in N. fold t in N. split.
  - unfold t_verify. destruct (all_intervals t); [|destruct (negb _); auto]. rewrite N. destruct (negb _); auto.
  - intros b e. assert (AT : forall p, t_at_number t p = Err AttributeError) by (intros p; unfold t_at_number; rewrite N; auto).
    split; [auto|]. unfold t_remove_overlap, t_remove_envelop, t_remove_all, t_chop, t_slice. rewrite !AT. cbn [bind]. split; [auto|]. split; [auto|]. split; [auto|].
    unfold t_overlap_numbers, t_envelop. rewrite N. destruct (Z.leb_spec e b); split; intros; try lia; auto.
Qed.
Lemma at_interval_none : forall t p, history t -> t_at_interval t p = [].
Proof. intros t p H. unfold t_at_interval. rewrite calm_search; [destruct (is_nil _); auto|]. apply (history_inv t H). Qed.
Lemma split_ok : forall t, history t ->
  ((forall i j, has t i -> has t j -> f_begin i = f_begin j /\ f_end i = f_end j) -> t_split_overlaps t = (Ok tt, t)) /\
  ((exists i j, has t i /\ has t j /\ (f_begin i <> f_begin j \/ f_end i <> f_end j)) -> t_split_overlaps t = (Err AttributeError, t)).
Proof.
  intros t H. pose proof (history_inv t H) as I. unfold t_split_overlaps, has. pose proof (i_bounds t I) as [SB CB].
  assert (KEY : forall k, In k (map fst (bounds t)) <-> exists i, In i (all_intervals t) /\ (f_begin i = k \/ f_end i = k)).
  { intros k. split.
    - intros K. apply in_map_iff in K as [[k' n] [<- K]]. cbn. apply (bt_get_In (bounds t) k' n SB) in K. rewrite CB in K. destruct (Z.eqb_spec (cnt (all_intervals t) k') 0) as [P|P]; [discriminate|]. apply cnt_pos_In. pose proof (cnt_nonneg (all_intervals t) k'). lia.
    - intros [i [IN E]]. assert (P : 0 < cnt (all_intervals t) k). { destruct (cnt_In i (all_intervals t) IN) as [P1 P2]. destruct E as [<-|<-]; auto. }
      apply in_map_iff. exists (k, cnt (all_intervals t) k). split; auto. apply bt_get_In; auto. rewrite CB. destruct (Z.eqb_spec (cnt (all_intervals t) k) 0); [lia|reflexivity]. }
  assert (ND : NoDup (map fst (bounds t))). { clear - SB. induction (map fst (bounds t)) as [|a l IH]; [constructor|]. inversion SB as [|? ? S1 S2]; subst. constructor; auto. intros IN. rewrite Forall_forall in S2. specialize (S2 _ IN). lia. }
  destruct (all_intervals t) as [|x l] eqn:AL.
  - unfold t_len. rewrite AL. cbn [List.length Nat.eqb]. split; auto. intros [i [j [A _]]]. exfalso. apply contains_In in A. rewrite AL in A. destruct A.
  - unfold t_len. rewrite AL. cbn [List.length Nat.eqb]. assert (X : In x (all_intervals t)) by (rewrite AL; left; auto). pose proof (i_ord t I x X) as [OX _].
    assert (NIL : is_nil (top_node t) = false) by (apply (i_incl t I) in X; destruct (top_node t); [destruct X|reflexivity]).
    assert (KX : forall k, k = f_begin x \/ k = f_end x -> In k (map fst (bounds t))) by (intros k K; apply KEY; exists x; split; [left; auto|]; destruct K; auto).
    assert (ND2 : NoDup [f_begin x; f_end x]) by (constructor; [intros [E|[]]; lia|constructor; [intros []|constructor]]).
    split.
    + intros S1. assert (L : List.length (bounds t) = 2%nat).
      { rewrite <- (map_length fst). change 2%nat with (List.length [f_begin x; f_end x]). apply Permutation_length. apply NoDup_Permutation; auto.
        intros k. rewrite KEY. split; [|intros [<-|[<-|[]]]; exists x; split; [left; auto|auto|left; auto|auto]]. intros [i [IN E]].
        destruct (S1 x i) as [E1 E2]; [apply contains_In; auto|apply contains_In; rewrite AL; auto|]. cbn. destruct E as [<-|<-]; auto. }
      rewrite L. reflexivity.
    + intros [i [j [A [B D]]]]. apply contains_In in A. apply contains_In in B. rewrite AL in A, B.
      assert (L : (3 <= List.length (bounds t))%nat).
      { assert (Y : exists y, In y (x :: l) /\ (f_begin x <> f_begin y \/ f_end x <> f_end y)).
        { destruct (Z.eq_dec (f_begin x) (f_begin i)); [|eauto]. destruct (Z.eq_dec (f_end x) (f_end i)); [|eauto]. exists j. split; auto. destruct D; [left|right]; congruence. }
        destruct Y as [y [Y D']]. assert (OY : f_begin y < f_end y) by (apply (i_ord t I); rewrite AL; auto).
        assert (Z3 : exists z, In z (map fst (bounds t)) /\ z <> f_begin x /\ z <> f_end x).
        { destruct (Z.eq_dec (f_begin y) (f_begin x)) as [E1|E1].
          - exists (f_end y). split; [apply KEY; eauto|]. lia.
          - destruct (Z.eq_dec (f_begin y) (f_end x)); [exists (f_end y); split; [apply KEY; eauto|lia]|exists (f_begin y); split; [apply KEY; eauto|lia]]. }
        destruct Z3 as [z [Z1 [Z2 Z4]]]. rewrite <- (map_length fst). change 3%nat with (List.length [z; f_begin x; f_end x]). apply NoDup_incl_length.
        - constructor; [|exact ND2]. intros [E|[E|[]]]; congruence.
        - intros k [<-|[<-|[<-|[]]]]; auto. }
      destruct (bounds t) as [|[k1 n1] [|[k2 n2] [|[k3 n3] r]]]; cbn [List.length] in *; try lia. cbn [Nat.eqb]. unfold t_getitem_number, t_at_number. rewrite NIL. reflexivity.
Qed.
