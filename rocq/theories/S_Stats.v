(** Specification for the statistics of a dataset. *)
From Verif Require Import PyBase M_Note M_Seq M_Chord M_Graph S_Graph M_Dataset S_Dataset.
Open Scope Z_scope.

Definition total (f : item -> nat) (l : list item) : Z := Z.of_nat (list_sum (map f l)).
Definition nodes_in (i : item) : nat := List.length (nodes_of (p_graph (i_pyg i))).
