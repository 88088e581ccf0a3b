(** Specification for frequencies: equal temperament and scientific pitch notation. *)
From Coq Require Import Reals ZArith String List.
From Verif Require Import PyBase.
Open Scope R_scope.

(** Equal temperament with A4 = 440 Hz: twelve equal ratios to the octave. *)
Definition equal_tempered (f : Z -> R) : Prop :=
  f 69%Z = 440 /\ (forall n, 0 < f n) /\ (forall n, f (n + 12)%Z = 2 * f n) /\
  (forall n m, f (n + 1)%Z / f n = f (m + 1)%Z / f m) /\ (forall n m, (n < m)%Z -> f n < f m).

(** The twelve pitch names from C up, and the MIDI number of a name in an octave (C4 is 60). *)
Definition names : list string :=
  ("C" :: "C#" :: "D" :: "D#" :: "E" :: "F" :: "F#" :: "G" :: "G#" :: "A" :: "A#" :: "B" :: nil)%string.
Definition midi_number (p : string) (octave k : Z) : Prop :=
  exists i, nth_error names i = Some p /\ k = (12 * (octave + 1) + Z.of_nat i)%Z.
