(** Specification of rounding to double precision (without bounds on the exponent). *)
From Coq Require Import Qabs Qpower.
From Verif Require Import PyBase.
Open Scope Z_scope.
(** [x] has at most 53 significant bits. *)
Definition bits53 (x : Q) : Prop := exists n e, Z.abs n <= 2 ^ 53 /\ (x == inject_Z n * 2 ^ e)%Q.
(** [x] is such a number, not zero, whose last of exactly 53 bits is zero. *)
Definition even53 (x : Q) : Prop := exists n e, Z.Even n /\ 2 ^ 52 <= Z.abs n <= 2 ^ 53 /\ (x == inject_Z n * 2 ^ e)%Q.
