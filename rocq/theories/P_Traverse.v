(** Properties C175-C176: the traversal of a graph for training (dijkstra_traversal2).
    [traverse fuel edges attr s] is the call for the edges (the columns of edge_index) with weights [attr],
    started at [s]; [fuel] bounds the number of pops. *)
From Coq Require Import Lia Lqa Sorted.
From Verif Require Import PyBase L_Base M_Traverse S_Traverse L_Traverse.
Open Scope Z_scope.

(** C175: the traversal always ends, after at most one pop more than there are edges; it gives every node
    reachable from the start exactly once and no other, and the edges that leave them, node by node, whatever
    the weights. *)
Theorem C175_reachable : forall fuel edges attr s, (List.length edges <= List.length attr)%nat -> (List.length edges < fuel)%nat ->
  exists nodes, traverse fuel edges attr s = Some (Ok (nodes, flat_map (leaving edges) nodes)) /\ NoDup nodes /\ (forall v, In v nodes <-> reach edges s v).
Proof.
  intros fuel edges attr s A F. destruct (traverse_spec edges attr A fuel s F) as (vs & T & N & R & _). exists (map fst vs). split; auto.
  rewrite T. do 3 f_equal. clear. induction vs; cbn; auto. f_equal. auto.
Qed.
Print Assumptions C175_reachable.

(** C176: if no weight is negative, the nodes come in the order of their distance from the start: the weight of
    a lightest walk, where of several edges between two nodes only the first one listed counts. *)
Theorem C176_order : forall fuel edges attr s, (List.length edges <= List.length attr)%nat -> (List.length edges < fuel)%nat ->
  (forall u v w, weight edges attr u v w -> (0 <= w)%Q) ->
  exists nodes out ds, traverse fuel edges attr s = Some (Ok (nodes, out)) /\ Forall2 (distance edges attr s) nodes ds /\ StronglySorted Qle ds.
Proof.
  intros fuel edges attr s A F NN. destruct (traverse_spec edges attr A fuel s F) as (vs & T & _ & _ & _ & R & _). destruct (R NN) as [R1 R2]. do 2 eexists. exists (map snd vs). split; [exact T|]. split.
  - clear - R2. induction vs as [|x vs IH]; cbn; constructor; [apply R2; left; auto|apply IH; intros; apply R2; right; auto].
  - clear - R1. induction R1 as [|x vs S IH F]; cbn; constructor; auto. rewrite Forall_forall in *. intros y Y. apply in_map_iff in Y as [z [<- Z]]. auto.
Qed.
Print Assumptions C176_order.
(** C176: if all weights are positive, nodes at the same distance come in the order of their numbers. *)
Theorem C176_ties : forall fuel edges attr s, (List.length edges <= List.length attr)%nat -> (List.length edges < fuel)%nat ->
  (forall u v w, weight edges attr u v w -> (0 < w)%Q) ->
  exists nodes out, traverse fuel edges attr s = Some (Ok (nodes, out)) /\
    forall a u b v c d, nodes = a ++ u :: b ++ v :: c -> distance edges attr s u d -> distance edges attr s v d -> u < v.
Proof.
  intros fuel edges attr s A F PO. destruct (traverse_spec edges attr A fuel s F) as (vs & T & N & _ & W & R & TI). specialize (TI PO).
  assert (NN : nonneg edges attr) by (intros u v w K; specialize (PO _ _ _ K); lra). destruct (R NN) as [_ D]. do 2 eexists. split; [exact T|].
  intros a u b v c d E Du Dv. rewrite E in N. assert (NE : u <> v).
  { intros ->. apply NoDup_remove_2 in N. apply N. rewrite !in_app_iff. right. right. left. reflexivity. }
  symmetry in E. symmetry in E. apply map_eq_app in E as (l1 & l2 & -> & <- & E). apply map_eq_cons in E as (x & l3 & -> & <- & E). apply map_eq_app in E as (l4 & l5 & -> & <- & E). apply map_eq_cons in E as (y & l6 & -> & <- & E).
  assert (L : lex x y).
  { clear - TI. induction l1 as [|z l1 IH]; cbn in TI; apply StronglySorted_inv in TI as [TI G]; auto. rewrite Forall_forall in G. apply G. apply in_app_iff. right. left. auto. }
  assert (Ix : In x (l1 ++ x :: l4 ++ y :: l6)) by (apply in_app_iff; right; left; auto). assert (Iy : In y (l1 ++ x :: l4 ++ y :: l6)) by (apply in_app_iff; right; right; apply in_app_iff; right; left; auto).
  destruct (D x Ix) as [X1 X2]. destruct (D y Iy) as [Y1 Y2]. destruct Du as [U1 U2], Dv as [V1 V2].
  pose proof (X2 _ U1). pose proof (U2 _ X1). pose proof (Y2 _ V1). pose proof (V2 _ Y1). destruct L as [L|[_ L]]; [lra|lia].
Qed.
Print Assumptions C176_ties.
(** Nodes 2 and 1 are both at distance 1; with weights of 0 the order is not that of the numbers. *)
Example C176_ties_case : traverse 4 [(0, 2); (0, 1); (1, 3)] [1; 1; 1]%Q 0 = Some (Ok ([0; 1; 2; 3], [(0, 2); (0, 1); (1, 3)])) /\
  traverse 4 [(0, 2); (2, 1)] [1; 0]%Q 0 = Some (Ok ([0; 2; 1], [(0, 2); (2, 1)])).
Proof. split; vm_compute; reflexivity. Qed.

(** A graph with two edges between 0 and 2: the second one, of weight 1, does not count. *)
Definition e175 : list (Z * Z) := [(0, 1); (0, 2); (0, 2); (1, 2); (2, 0); (3, 0)].
Definition a175 : list Q := [2; 4; 1; 1; 5; 1]%Q.
Example C175_case : (List.length e175 <= List.length a175)%nat /\ (forall u v w, weight e175 a175 u v w -> (0 <= w)%Q) /\
  traverse 7 e175 a175 0 = Some (Ok ([0; 1; 2], [(0, 1); (0, 2); (0, 2); (1, 2); (2, 0)])) /\
  distance e175 a175 0 2 (0 + 2 + 1) /\ ~ weight e175 a175 0 2 1.
Proof.
  split; [cbn; lia|]. assert (NN : forall u v w, weight e175 a175 u v w -> (0 <= w)%Q).
  { intros u v w (i & _ & A & _). do 6 (destruct i as [|i]; [cbn in A; injection A as <-; lra|]). destruct i; discriminate. }
  split; auto. split; [vm_compute; reflexivity|]. split.
  - assert (W01 : weight e175 a175 0 1 2) by (exists 0%nat; split; [reflexivity|split; [reflexivity|intros j J; lia]]).
    assert (W12 : weight e175 a175 1 2 1) by (exists 3%nat; split; [reflexivity|split; [reflexivity|intros j J; do 3 (destruct j as [|j]; [cbn; congruence|]); lia]]).
    split; [econstructor; [econstructor; [constructor|exact W01]|exact W12]|].
    assert (G : forall v d, walk e175 a175 0 v d -> (0 <= d)%Q /\ (v = 1 -> (2 <= d)%Q) /\ (v = 2 -> (3 <= d)%Q)).
    { intros v d W. induction W as [|u v d w W (G1 & G2 & G3) (i & E & A & FST)]; [split; [lra|split; discriminate]|].
      do 6 (destruct i as [|i]; [cbn in E, A; injection E as <- <-; injection A as <-; try (exfalso; apply (FST 1%nat); [lia|reflexivity]); (split; [lra|split; intros; try discriminate; try (specialize (G2 eq_refl)); lra])|]). destruct i; discriminate. }
    intros d' W. destruct (G _ _ W) as (_ & _ & K). specialize (K eq_refl). lra.
  - intros (i & E & A & F). destruct i as [|[|[|i]]]; [discriminate|discriminate|apply (F 1%nat); [lia|reflexivity]|]. do 3 (destruct i as [|i]; [discriminate|]). destruct i; discriminate.
Qed.
(** With a negative weight the order is not that of the distances: 2 is at distance 0 but comes after 1. *)
Example C176_negative : traverse 4 [(0, 1); (0, 2); (1, 2)] [1; 3; -1]%Q 0 = Some (Ok ([0; 1; 2], [(0, 1); (0, 2); (1, 2)])).
Proof. vm_compute. reflexivity. Qed.
