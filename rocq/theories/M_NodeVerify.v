(** Model of Node.verify, neural_graph_composer/interval/node.py:472-514.  The text of the messages
    (print_structure) is left out; it always exists for the intervals of the model. *)
From Verif Require Import PyBase M_FloatInterval M_Node.
Open Scope Z_scope.

(** node.py:472-514 verify: the outcome and the node afterwards, whose balance and depth line 487 refreshes.  math.isclose with one argument (500) is a
    TypeError, raised for the first interval of s_center, so the lines after it never run. *)
Definition nd_verify (t : node) : res unit * node :=
  match t with
  | Nil => (Err AttributeError, Nil)
  | Nd x s l r d b =>
    if negb (zclose (Z.abs b) 2) then (Err AssertionError, t)
    else let t' := refresh t in
         if negb (b =? nd_balance t') then (Err AssertionError, t')
         else match s with [] => (Err AssertionError, t') | _ :: _ => (Err TypeError, t') end
  end.
