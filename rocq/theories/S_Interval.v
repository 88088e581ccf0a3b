(** Specification vocabulary for closed intervals: point sets and order laws. *)
From Verif Require Import PyBase M_Interval.
Open Scope Z_scope.

(** Time [x] lies in the closed interval. *)
Definition in_closed (a : interval) (x : Z) : Prop := i_start a <= x <= i_end a.

(** The laws sorted containers need from a key's comparison operators. *)
Record strict_total_order {K : Type} (ltb eqb : K -> K -> bool) : Prop := {
  sto_eq    : forall a b, eqb a b = true <-> a = b;
  sto_irr   : forall a, ltb a a = false;
  sto_trans : forall a b c, ltb a b = true -> ltb b c = true -> ltb a c = true;
  sto_total : forall a b, ltb a b = true \/ a = b \/ ltb b a = true
}.
