(** Specification of split sizes in double precision. *)
From Coq Require Import QArith Qround.
From Verif Require Import PyBase.
Open Scope Z_scope.
(** [k] is the share p/q of [n], rounded down; when the share is a whole number it may be one less. *)
Definition share (p q : Z) (n : nat) (k : Z) : Prop :=
  k = p * Z.of_nat n / q \/ (p * Z.of_nat n mod q = 0 /\ k = p * Z.of_nat n / q - 1).
