(** Further theorems about C118 (verify of a tree) and C199 (clipping of velocities). *)
From Coq Require Import Permutation Qround Lia Lqa.
From Verif Require Import PyBase L_Base M_FloatInterval M_Node M_Tree S_Tree L_Tree L_Tree2 L_Tree3 M_TreeSet P_Tree M_Float L_Float M_Rescale.
Open Scope Z_scope.

(** C118: after insertions only, verify of a tree with members raises NameError (it uses the undefined name
    Interval): the node tree agrees with the set. *)
Theorem C118_verify_insertions : forall ops i, Forall insert_only ops -> let t := t_run t_empty ops in
  t_contains t i = true -> t_verify t = Err NameError.
Proof.
  intros ops i F t C. destruct (tree_insertions_balanced ops F) as [P _]. fold t in P. unfold t_contains in C. apply set_mem_In in C. unfold t_verify.
  destruct (all_intervals t) as [|a l] eqn:E; [destruct C|]. replace (same_members (nd_elems (top_node t)) (a :: l)) with true; [reflexivity|].
  symmetry. unfold same_members. apply Bool.andb_true_iff. split; apply forallb_forall; intros x I; apply set_mem_In; [apply (Permutation_in _ P); auto|apply (Permutation_in _ (Permutation_sym P)); auto].
Qed.
Print Assumptions C118_verify_insertions.
(** C118: after a member was discarded, verify raises AssertionError: the node tree keeps the interval. *)
Theorem C118_verify_discarded : forall ops i, Forall op_ok ops -> null_or_ordinary i -> let t := t_run t_empty ops in
  t_contains t i = true -> t_verify (snd (t_discard t i)) = Err AssertionError.
Proof.
  intros ops i F O t C. destruct (tree_remove_always_raises ops i F O) as [_ H]. fold t in H. specialize (H C). cbv zeta in H. set (t' := snd (t_discard t i)) in *. destruct H as [N [I _]].
  unfold t_verify, t_contains in *. destruct (all_intervals t') as [|a l] eqn:E.
  - destruct (bounds t'); [|reflexivity]. cbn [negb]. destruct (top_node t'); [destruct I|reflexivity].
  - replace (same_members (nd_elems (top_node t')) (a :: l)) with false; [reflexivity|]. symmetry. unfold same_members.
    apply Bool.andb_false_iff. left. apply Bool.not_true_iff_false. intros Q. rewrite forallb_forall in Q. rewrite (Q i I) in N. discriminate.
Qed.
Print Assumptions C118_verify_discarded.
Example C118_verify_case : t_verify (t_run t_empty (ascending 3)) = Err NameError /\
  t_verify (snd (t_discard (t_run t_empty (ascending 3)) (mkF 2 5 None))) = Err AssertionError /\ t_contains (t_run t_empty (ascending 3)) (mkF 2 5 None) = true.
Proof. vm_compute. auto. Qed.

(** C199: with a negative factor every velocity becomes 0. *)
Theorem C199_negative : forall nan l f, (forall v, In v l -> 0 <= v) -> (exists v, In v l /\ 0 < v) -> (f < 0)%Q ->
  scale_relative_velocities nan l f = map (fun _ => 0) l.
Proof.
  intros nan l f H0 [x [X XP]] F. unfold scale_relative_velocities.
  set (s := fold_left Z.add l 0). set (avg := fl (inject_Z s / inject_Z (Z.of_nat (List.length l)))).
  assert (SP : 0 < s).
  { assert (G : forall k a, (forall v, In v k -> 0 <= v) -> a <= fold_left Z.add k a /\ (In x k -> a + x <= fold_left Z.add k a)).
    { induction k as [|v k IH]; intros a K; cbn [fold_left]; [split; [lia|intros []]|]. pose proof (K v (or_introl eq_refl)) as V.
      destruct (IH (a + v) (fun w W => K w (or_intror W))) as [I1 I2]. split; [lia|]. intros [->|I]; [lia|]. specialize (I2 I). lia. }
    destruct (G l 0 H0) as [_ G2]. specialize (G2 X). fold s in G2. lia. }
  assert (AP : (0 < avg)%Q).
  { apply fl_gt0. apply Qlt_shift_div_l; [change 0%Q with (inject_Z 0); rewrite <- Zlt_Qlt; destruct l; [destruct X|cbn; lia]|].
    rewrite Qmult_0_l. change 0%Q with (inject_Z 0). rewrite <- Zlt_Qlt. auto. }
  apply map_ext_in. intros v V. replace (Qeq_bool avg 0) with false by (symmetry; apply Bool.not_true_iff_false; intros E; apply Qeq_bool_eq in E; lra).
  assert (FN : forall y, (y <= 0)%Q -> (fl y <= 0)%Q).
  { intros y Y. unfold fl. replace (Qltb 0 y) with false by (symmetry; apply Qltb_ge; auto). destruct (Qltb y 0) eqn:L; [|lra]. apply Qltb_lt in L.
    rewrite Qred_correct. assert (K : (0 < fl (- y))%Q) by (apply fl_gt0; lra). rewrite fl_is_pos in K by lra. lra. }
  assert (NP : forall a b, (0 <= a)%Q -> (b <= 0)%Q -> (a * b <= 0)%Q) by (intros a b A B; assert (0 <= a * (- b))%Q by (apply Qmult_le_0_compat; lra); lra).
  assert (D : (0 <= fl (inject_Z v / avg))%Q).
  { apply fl_nonneg. apply Qle_shift_div_l; auto. rewrite Qmult_0_l. change 0%Q with (inject_Z 0). rewrite <- Zle_Qle. auto. }
  set (y := fl (fl (fl (inject_Z v / avg) * f) * avg)). assert (Y : (y <= 0)%Q).
  { apply FN. rewrite Qmult_comm. apply NP; [lra|]. apply FN. apply NP; [exact D|lra]. }
  unfold clip_int. destruct (Qltb y 0) eqn:L; [reflexivity|]. apply Qltb_ge in L. replace (Qltb 127 y) with false by (symmetry; apply Qltb_ge; lra).
  rewrite (Qfloor_comp y 0) by lra. reflexivity.
Qed.
Print Assumptions C199_negative.
Example C199_negative_case : scale_relative_velocities 7 [0; 64; 100] (-1 # 2) = [0; 0; 0].
Proof. vm_compute. reflexivity. Qed.
