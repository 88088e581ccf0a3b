(** Specification vocabulary for tempo conversions in double precision. *)
From Coq Require Import QArith.
From Verif Require Import PyBase M_Float.
Open Scope Q_scope.

(** [a] is [b] up to [k] parts in 2^51. *)
Definition parts (k : Z) (a b : Q) : Prop := Qabsb (a - b) <= b * (inject_Z k / inject_Z (2 ^ 51)).
(** A positive double. *)
Definition pos_double (x : Q) : Prop := 0 < x /\ fl x == x.
