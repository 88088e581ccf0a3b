(** Specification for the scripts that check datasets. *)
From Verif Require Import PyBase M_Note M_Seq M_Chord M_Graph S_Graph M_Checker.
Open Scope Z_scope.

(** Every node is in exactly one of the three masks. *)
Definition one_mask (k : checked) : Prop := forall i, (i < Z.to_nat (k_nodes k))%nat ->
  (nth i (k_train k) false = true /\ nth i (k_val k) false = false /\ nth i (k_test k) false = false) \/
  (nth i (k_train k) false = false /\ nth i (k_val k) false = true /\ nth i (k_test k) false = false) \/
  (nth i (k_train k) false = false /\ nth i (k_val k) false = false /\ nth i (k_test k) false = true).
(** Masks, targets and labels have an entry for every node. *)
Definition per_node (k : checked) : Prop :=
  0 <= k_nodes k /\ Forall (fun m => Z.of_nat (List.length m) = k_nodes k) [k_train k; k_val k; k_test k] /\
  Z.of_nat (List.length (k_y k)) = k_nodes k /\ Z.of_nat (List.length (k_label k)) = k_nodes k.
(** Edges between nodes. *)
Definition in_range (k : checked) : Prop := Forall (fun e => 0 <= fst e < k_nodes k /\ 0 <= snd e < k_nodes k) (k_edges k).
(** The node [b] is entered by an edge from [a]. *)
Definition entered (g : digraph) (a b : Z) : Prop := In (a, b) (map fst (g_edges g)).
