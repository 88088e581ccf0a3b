(** Specification for FloatInterval: nearness, half-open point sets, ordinary intervals. *)
From Verif Require Import PyBase M_FloatInterval.
Open Scope Z_scope.

(** Two times agree to a relative 1e-9. *)
Definition near (a b : Z) : Prop := 1000000000 * Z.abs (a - b) <= Z.max (Z.abs a) (Z.abs b).

(** The documented point set of an interval: begin <= p < end. *)
Definition in_half_open (i : fiv) (p : Z) : Prop := f_begin i <= p < f_end i.

(** An interval longer than 3e-9 of its largest endpoint (relative). *)
Definition long_enough (i : fiv) : Prop :=
  f_begin i < f_end i /\
  3 * Z.max (Z.abs (f_begin i)) (Z.abs (f_end i)) < 1000000000 * (f_end i - f_begin i).

(** An interval with no time near both endpoints. *)
Definition ordinary (i : fiv) : Prop :=
  f_begin i < f_end i /\ forall p, ~ (near (f_begin i) p /\ near p (f_end i)).
