(** Specification for C115-C118: histories over several trees. *)
From Verif Require Import PyBase M_FloatInterval M_Node M_Tree M_TreeSet S_FloatInterval S_Tree.
Open Scope Z_scope.

(** Trees that calls can produce: constructed, changed by a method or an in-place operator (raising or
    not), or the result of an operator. *)
Inductive history : tree -> Prop :=
| h_new ivs t : (forall i, In i ivs -> null_or_ordinary i) -> t_init ivs = Ok t -> history t
| h_step t o : history t -> op_ok o -> history (snd (t_step t o))
| h_or t u r : history t -> history u -> t_or t u = Ok r -> history r
| h_and t u r : history t -> history u -> t_and t u = Ok r -> history r
| h_sub t u r : history t -> history u -> t_sub t u = Ok r -> history r
| h_xor t u r : history t -> history u -> t_xor t u = Ok r -> history r
| h_ior t u : history t -> history u -> history (snd (t_ior t u))
| h_iand t u : history t -> history u -> history (snd (t_iand t u))
| h_isub t u : history t -> history u -> history (snd (t_isub t u))
| h_ixor t u : history t -> history u -> history (snd (t_ixor t u))
| h_pop t first : history t -> (forall l, l <> [] -> In (first l) l) -> history (snd (t_pop first t)).

(** The members of a tree, as a mathematical set. *)
Definition has (t : tree) (k : fiv) : Prop := t_contains t k = true.

(** Has an interval been added since the tree was made or cleared? *)
Definition touched_after (b : bool) (o : t_op) : bool :=
  match o with
  | TAdd i => b || (f_begin i <? f_end i)
  | TUpdate l => b || match l with i :: _ => f_begin i <? f_end i | [] => false end
  | TClear => false
  | _ => b
  end.
Definition touched (ops : list t_op) : bool := fold_left touched_after ops false.
