(** Property C201: Node.verify accepts no node. *)
From Coq Require Import Lia.
From Verif Require Import PyBase M_FloatInterval S_FloatInterval L_FloatInterval M_Node M_Tree S_Tree L_Tree P_Tree M_NodeVerify S_NodeVerify.
Open Scope Z_scope.

Lemma close2 : forall b, zclose (Z.abs b) 2 = true <-> Z.abs b = 2.
Proof. intro b. unfold zclose. rewrite Z.leb_le. lia. Qed.
Lemma inside_inv : forall t n, inside t n -> records_right t -> balanced t -> one_per_node t -> records_right n /\ balanced n /\ one_per_node n.
Proof. induction 1; cbn; intros R B O; [auto|apply IHinside; tauto|apply IHinside; tauto]. Qed.
(** C201: verify of a node raises whatever the node: a TypeError if its recorded balance is 2 or -2, agrees with the recorded
    depths of its children and the node holds an interval, and an AssertionError otherwise. *)
Theorem C201_verify : forall x s l r d b, fst (nd_verify (Nd x s l r d b)) =
  Err (if (Z.abs b =? 2) && (b =? nd_depth r - nd_depth l) && negb (Nat.eqb (List.length s) 0) then TypeError else AssertionError).
Proof.
  intros x s l r d b. unfold nd_verify. cbn [refresh nd_balance]. destruct (zclose (Z.abs b) 2) eqn:C; cbn [negb].
  - apply close2 in C. rewrite (proj2 (Z.eqb_eq _ _) C). destruct (b =? nd_depth r - nd_depth l); cbn; [|reflexivity]. destruct s; reflexivity.
  - replace (Z.abs b =? 2) with false; [reflexivity|]. symmetry. apply Z.eqb_neq. intro H. apply close2 in H. congruence.
Qed.
Print Assumptions C201_verify.
(** C201: it keeps the intervals, the keys and the shape; at most the node's own depth and balance are computed anew. *)
Theorem C201_kept : forall x s l r d b, exists d' b', snd (nd_verify (Nd x s l r d b)) = Nd x s l r d' b' /\
  ((d' = d /\ b' = b) \/ (d' = 1 + Z.max (nd_depth l) (nd_depth r) /\ b' = nd_depth r - nd_depth l)).
Proof.
  intros x s l r d b. unfold nd_verify. cbn [refresh nd_balance].
  destruct (zclose (Z.abs b) 2); cbn [negb]; [|exists d, b; auto].
  exists (1 + Z.max (nd_depth l) (nd_depth r)), (nd_depth r - nd_depth l). split; [|auto].
  destruct (b =? _); cbn [negb]; [destruct s|]; reflexivity.
Qed.
Print Assumptions C201_kept.
(** C201: in a tree made by insertions every node is well balanced, and just for that reason verify of every node of it raises an
    AssertionError saying that a rotation should have happened; nothing changes. *)
Theorem C201_balanced_refused : forall ops n, Forall insert_only ops -> inside (top_node (t_run t_empty ops)) n -> n <> Nil ->
  Z.abs (nd_balance n) <= 1 /\ nd_verify n = (Err AssertionError, n).
Proof.
  intros ops n F I N. destruct (tree_insertions_balanced ops F) as (_ & _ & O & _ & R & B & _).
  destruct (inside_inv _ _ I R B O) as (R' & B' & O'). destruct n as [|x s l r d b]; [congruence|]. cbn in R', B'. destruct R' as (_ & Eb & _). destruct B' as [B' _].
  cbn [nd_balance]. split; [lia|]. unfold nd_verify. replace (zclose (Z.abs b) 2) with false; [reflexivity|].
  symmetry. destruct (zclose (Z.abs b) 2) eqn:E; auto. apply close2 in E. lia.
Qed.
Print Assumptions C201_balanced_refused.
(** A balanced tree, a node that really needs a rotation, and one whose recorded balance is out of date. *)
Example C201_case : (let t := top_node (t_run t_empty (ascending 15)) in t <> Nil /\ nd_verify t = (Err AssertionError, t) /\ height t = 4) /\
  fst (nd_verify (Nd 5 [mkF 5 8 None] Nil (Nd 6 [mkF 6 9 None] Nil (Nd 7 [mkF 7 9 None] Nil Nil 1 0) 2 1) 3 2)) = Err TypeError /\
  nd_verify (Nd 5 [mkF 5 8 None] Nil (Nd 6 [mkF 6 9 None] Nil Nil 1 0) 3 2) = (Err AssertionError, Nd 5 [mkF 5 8 None] Nil (Nd 6 [mkF 6 9 None] Nil Nil 1 0) 2 1).
Proof. split; [split; [vm_compute; discriminate|split; vm_compute; reflexivity]|]. split; reflexivity. Qed.
