(** Specification for notes. *)
From Verif Require Import PyBase M_Note.
Open Scope Z_scope.

(** [v] moved to the nearest value of lo..hi. *)
Definition nearest_in (lo hi v r : Z) : Prop :=
  lo <= r <= hi /\ forall w, lo <= w <= hi -> Z.abs (r - v) <= Z.abs (w - v).

(** Field ranges of a note. *)
Definition in_ranges (n : note) : Prop :=
  0 <= n_pitch n <= 127 /\ 0 <= n_velocity n <= 127 /\ 0 <= n_program n <= 255 /\
  0 <= n_instrument n <= 127 /\ 1 <= n_num n <= 255 /\ 1 <= n_den n <= 255.
Definition power_of_two (d : Z) : Prop := exists k, 0 <= k /\ d = 2 ^ k.

(** The time [t] lies strictly inside the note. *)
Definition sounds_at (n : note) (t : Q) : Prop := (n_start n < t)%Q /\ (t < n_end n)%Q.

(** Calls that can only be the two time assignments. *)
Definition time_assignment (o : n_op) : Prop :=
  match o with NSetStart _ | NSetEnd _ => True | _ => False end.

(** Two times are equal or differ by more than the 1e-6 tolerance. *)
Definition separated (a b : Q) : Prop := (a == b)%Q \/ (a + tol < b)%Q \/ (b + tol < a)%Q.

(** Arguments a note can be built from. *)
Definition accepts (a : note) : Prop := (n_start a < n_end a)%Q /\ 0 < n_num a /\ power_of_two (n_den a).

(** [a] is before [b] by more than the tolerance; [a] and [b] are within it. *)
Definition before_tol (a b : Q) : Prop := (a + tol < b)%Q.
Definition within_tol (a b : Q) : Prop := (a <= b + tol)%Q /\ (b <= a + tol)%Q.

(** Everything except the times and the quantised steps. *)
Definition same_identity (a b : note) : Prop :=
  n_pitch a = n_pitch b /\ n_velocity a = n_velocity b /\ n_program a = n_program b /\
  n_instrument a = n_instrument b /\ n_voice a = n_voice b /\ n_num a = n_num b /\ n_den a = n_den b /\
  n_drum a = n_drum b.

(** Calls other than shift_time and stretch. *)
Definition not_shift (o : n_op) : Prop := match o with NShift _ | NStretch _ => False | _ => True end.
