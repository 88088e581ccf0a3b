(** Specification for the step, beat and JSON computations of notes. *)
From Coq Require Import Qabs.
From Verif Require Import PyBase M_Note M_NoteExtra.
Open Scope Z_scope.

(** A note built by the constructor has a positive time signature. *)
Definition has_meter (n : note) : Prop := 0 < n_num n /\ 0 < n_den n.

(** [r] is [x] rounded to [1/d]: the nearest multiple, ties away from zero. *)
Definition nearest_multiple (d : positive) (x r : Q) : Prop :=
  (exists k, r == inject_Z k / inject_Z (Zpos d))%Q /\
  (forall k : Z, Qabs (r - x) <= Qabs (inject_Z k / inject_Z (Zpos d) - x))%Q /\
  (Qabs (r - x) == 1 / (2 * inject_Z (Zpos d)) -> Qabs x < Qabs r)%Q.

(** The dictionary written for the constructor arguments [a], with every key present. *)
Definition json_of (a : note) : note_json :=
  mkJ (Some (n_pitch a)) (Some (n_start a)) (Some (n_end a)) (Some (n_program a)) (Some (n_instrument a))
      (Some (n_velocity a)) (Some (n_qs a)) (Some (n_qe a)) (Some (n_voice a)) (Some (n_num a)) (Some (n_den a))
      (Some (n_drum a)).
Definition lacks_required (j : note_json) : Prop :=
  j_pitch j = None \/ j_start j = None \/ j_end j = None \/ j_program j = None \/ j_instrument j = None \/
  j_velocity j = None.
