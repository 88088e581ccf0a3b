(** Specification for shifting and stretching in double precision (C212). *)
From Coq Require Import QArith Qabs ZArith.
From Verif Require Import PyBase M_Note.
Open Scope Z_scope.

(** [y] is [x] up to half a unit in the last of 53 bits. *)
Definition rounded (x y : Q) : Prop := (Qabs (y - x) <= Qabs x / inject_Z (2 ^ 53))%Q.
(** [b] is [a] with other times. *)
Definition retimed (a b : note) : Prop :=
  n_pitch b = n_pitch a /\ n_velocity b = n_velocity a /\ n_program b = n_program a /\ n_instrument b = n_instrument a /\
  n_voice b = n_voice a /\ n_num b = n_num a /\ n_den b = n_den a /\ n_drum b = n_drum a /\ n_qs b = n_qs a /\ n_qe b = n_qe a.
