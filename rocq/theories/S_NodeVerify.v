(** Specification for Node.verify. *)
From Verif Require Import PyBase M_FloatInterval M_Node.
(** [inside t n]: [n] is a node of the tree [t]. *)
Inductive inside : node -> node -> Prop :=
| in_here t : inside t t
| in_left x s l r d b n : inside l n -> inside (Nd x s l r d b) n
| in_right x s l r d b n : inside r n -> inside (Nd x s l r d b) n.
