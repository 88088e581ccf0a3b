(** Specification for the traversal of a weighted graph. *)
From Verif Require Import PyBase.
Open Scope Z_scope.

(** The weight that counts between two nodes: that of the first edge listed between them. *)
Definition weight (edges : list (Z * Z)) (attr : list Q) (u v : Z) (w : Q) : Prop :=
  exists i, nth_error edges i = Some (u, v) /\ nth_error attr i = Some w /\ forall j, (j < i)%nat -> nth_error edges j <> Some (u, v).
(** [walk g s v d]: a walk from [s] to [v] whose weights add up to [d]. *)
Inductive walk (edges : list (Z * Z)) (attr : list Q) (s : Z) : Z -> Q -> Prop :=
| walk_here : walk edges attr s s 0
| walk_step u v d w : walk edges attr s u d -> weight edges attr u v w -> walk edges attr s v (d + w).
(** A node that can be reached along edges. *)
Inductive reach (edges : list (Z * Z)) (s : Z) : Z -> Prop :=
| reach_here : reach edges s s
| reach_step u v : reach edges s u -> In (u, v) edges -> reach edges s v.
(** [d] is the weight of a lightest walk. *)
Definition distance (edges : list (Z * Z)) (attr : list Q) (s v : Z) (d : Q) : Prop :=
  walk edges attr s v d /\ forall d', walk edges attr s v d' -> (d <= d')%Q.
(** The edges that leave a node, in the order of the list. *)
Definition leaving (edges : list (Z * Z)) (u : Z) : list (Z * Z) := filter (fun e => fst e =? u) edges.
