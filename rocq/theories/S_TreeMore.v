(** Specification for C151, C152: where the intervals of a tree sit. *)
From Verif Require Import PyBase M_FloatInterval M_Node.
Open Scope Z_scope.

(** One level per stored interval, the root being at level [d]. *)
Fixpoint levels (d : Z) (t : node) : list Z :=
  match t with Nil => [] | Nd _ s l r _ _ => map (fun _ => d) s ++ levels (d + 1) l ++ levels (d + 1) r end.
Definition total (l : list Z) : Z := fold_right Z.add 0 l.
(** How far the intervals lie beyond the level [o]. *)
Definition lateness (o : Z) (t : node) : Z := total (map (fun d => Z.max 0 (d - o)) (levels 1 t)).
(** [o] levels are what a perfectly balanced tree of [m] nodes needs. *)
Definition enough_levels (o m : Z) : Prop := 2 ^ (o - 1) <= m < 2 ^ o.
