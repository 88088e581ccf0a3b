(** Property C192: what the dataset check of example_read_complex_midi.py accepts.
    [check_graph k] is the body of its main loop on one graph [k] of the loader. *)
From Coq Require Import Sorted Permutation Lia.
From Verif Require Import PyBase L_Base M_Note M_Events M_Seq S_Seq M_Chord M_Graph S_Graph L_Graph L_Graph2 L_Graph8 M_Checker S_Checker L_Checker L_Checker2 P_Graph.
Open Scope Z_scope.

(** C192: the check passes exactly if every node is in one mask, the targets are the labels, there are as many edges
    as nodes and every edge joins nodes. *)
Theorem C192_check : forall k, per_node k ->
  (check_graph k = Ok tt <-> one_mask k /\ k_y k = k_label k /\ Z.of_nat (List.length (k_edges k)) = k_nodes k /\ in_range k).
Proof. exact check_spec. Qed.
Print Assumptions C192_check.
(** C192: in a graph built from tracks every node is entered by an edge, so there are at least as many edges as nodes. *)
Theorem C192_edges : forall e c ts g, graph_of_tracks e c ts g -> graph_ok g ->
  (forall h, In h (nodes_of g) -> exists a, entered g a h) /\ (List.length (nodes_of g) <= List.length (g_edges g))%nat.
Proof.
  intros e c ts g T G. assert (A : forall h, In h (nodes_of g) -> exists a, entered g a h) by (apply entered_all, (tracks_entered e c ts g T)). split; [exact A|apply (edges_at_least g G A)].
Qed.
Print Assumptions C192_edges.
(** C192: so of a graph built from tracks, with masks and targets as they should be, the check fails as soon as some
    chord can be reached from two others. *)
Theorem C192_built : forall e c ts g k, graph_of_tracks e c ts g -> graph_ok g -> per_node k -> one_mask k -> k_y k = k_label k ->
  k_nodes k = Z.of_nat (List.length (nodes_of g)) -> k_edges k = map (fun ij => (Z.of_nat (fst ij), Z.of_nat (snd ij))) (edge_index g) ->
  (check_graph k = Ok tt <-> forall h a b, entered g a h -> entered g b h -> a = b).
Proof.
  intros e c ts g k T G PN O Y KN KE. destruct (C192_edges e c ts g T G) as [A _]. destruct (edges_at_least g G A) as [_ EQ]. destruct (edge_index_spec g G) as (L1 & L2 & S1 & _).
  assert (R : in_range k).
  { unfold in_range. rewrite KE, KN. apply Forall_forall. intros x X. apply in_map_iff in X as [[i j] [<- X]]. apply In_nth_error in X as [n N].
    assert (LN : (n < List.length (edge_weights g))%nat) by (rewrite L2, <- L1; apply nth_error_Some; congruence). apply nth_error_Some in LN. destruct (nth_error (edge_weights g) n) as [w|] eqn:W; [|congruence].
    destruct (S1 n i j w N W) as (a & b & N1 & N2 & _). assert (I1 : (i < List.length (nodes_of g))%nat) by (apply nth_error_Some; congruence). assert (I2 : (j < List.length (nodes_of g))%nat) by (apply nth_error_Some; congruence). cbn [fst snd]. lia. }
  rewrite (check_spec k PN), <- EQ. assert (LE : List.length (k_edges k) = List.length (g_edges g)) by (rewrite KE, map_length; exact L1). rewrite LE, KN. split; [intros (_ & _ & H & _); lia|]. intros H. split; [exact O|]. split; [exact Y|]. split; [lia|exact R].
Qed.
Print Assumptions C192_built.
(** A walk over three chords passes; coming back to the first by another edge fails. *)
Example C192_case : let k es := mkCk [true; false; false] [false; true; false] [false; false; true] [4; 5; 6] [4; 5; 6] es 3 in
  per_node (k []) /\ check_graph (k [(0, 0); (0, 1); (1, 2)]) = Ok tt /\ check_graph (k [(0, 0); (0, 1); (1, 2); (2, 0)]) = Err AssertionError /\ check_graph (k [(0, 0); (0, 1)]) = Err IndexError.
Proof. cbv zeta. split; [|vm_compute; auto]. unfold per_node. cbn. split; [lia|]. split; [auto|]. split; reflexivity. Qed.
Example C192_built_case : exists g, fst (build_sequence e_ex b_new s_ex cf None) = Ok g /\ edge_index g = [(0, 0); (0, 1); (1, 2); (2, 0)]%nat /\ graph_of_tracks e_ex cf [s_ex] g /\ graph_ok g /\
  ~ (forall h a b, entered g a h -> entered g b h -> a = b).
Proof.
  destruct (build_sequence e_ex b_new s_ex cf None) as [[g|] b'] eqn:E.
  - destruct (C45_fresh _ _ _ _ _ _ e_ex_ok E) as (ws & C & G & OK).
    assert (X : match fst (build_sequence e_ex b_new s_ex cf None) with Ok g => edge_index g = [(0, 0); (0, 1); (1, 2); (2, 0)]%nat /\ g_edges g = [((2 ^ 60 + 2 ^ 64, 2 ^ 60 + 2 ^ 64), 1); ((2 ^ 60 + 2 ^ 64, 2 ^ 67), 2); ((2 ^ 67, 2 ^ 69), 2); ((2 ^ 69, 2 ^ 60 + 2 ^ 64), 1)] | Err _ => False end) by (vm_compute; auto).
    rewrite E in X. cbn [fst] in X. destruct X as [X1 X2]. exists g. split; [reflexivity|]. split; [exact X1|]. split; [|split; [exact OK|]].
    + apply gt_one. exists ws. split; [|auto]. intros ->. destruct G as (N & _). assert (NN : g_nodes g = []) by (unfold nodes_of in N; cbn in N; destruct (g_nodes g); [auto|discriminate]).
      destruct OK as (_ & _ & GE & _). assert (Y : In (2 ^ 67, 2 ^ 69, 2) (g_edges g)) by (rewrite X2; cbn; auto). apply GE in Y as [Y _]. unfold nodes_of in Y. rewrite NN in Y. destruct Y.
    + intros U. assert (B : 2 ^ 69 = 2 ^ 60 + 2 ^ 64) by (apply (U (2 ^ 60 + 2 ^ 64)); unfold entered; rewrite X2; cbn [map fst In]; auto). discriminate.
  - exfalso. assert (X : match fst (build_sequence e_ex b_new s_ex cf None) with Ok _ => True | Err _ => False end) by (vm_compute; exact I). rewrite E in X. exact X.
Qed.
