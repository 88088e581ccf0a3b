(** Model of the frequency helpers of neural_graph_composer/midi/midi_note.py, over the real
    numbers of the standard library (numpy's binary64 power is exact here). *)
From Coq Require Import Reals ZArith String List.
From Verif Require Import PyBase.
Import ListNotations.
Open Scope R_scope.

(** midi_spec.py:36-38 REFERENCE_NOTE, STANDARD_FREQ, SEMITONES_PER_OCTAVE. *)
Definition reference_note : Z := 69%Z.
(** midi_spec.py:36-38 *)
Definition standard_freq : R := 440.
(** midi_spec.py:36-38 *)
Definition semitones_per_octave : Z := 12%Z.
(** midi_spec.py:73-75 PITCH_FREQUENCIES. *)
Definition pitch_index : list (string * Z) :=
  [("C"%string, 0%Z); ("C#"%string, 1%Z); ("D"%string, 2%Z); ("D#"%string, 3%Z); ("E"%string, 4%Z); ("F"%string, 5%Z);
   ("F#"%string, 6%Z); ("G"%string, 7%Z); ("G#"%string, 8%Z); ("A"%string, 9%Z); ("A#"%string, 10%Z); ("B"%string, 11%Z)].
(** midi_spec.py:73-75 *)
Fixpoint lookup (p : string) (d : list (string * Z)) : option Z :=
  match d with [] => None | (k, v) :: r => if String.eqb k p then Some v else lookup p r end.

(** midi_note.py:712-738 note_to_freq. *)
Definition note_to_freq (note : Z) : R :=
  standard_freq * Rpower 2 (IZR (note - reference_note) / IZR semitones_per_octave).

(** midi_note.py:740-756 pitch_to_freq. *)
Definition pitch_to_freq (pitch : string) (octave : Z) : res R :=
  match lookup pitch pitch_index with
  | None => Err KeyError
  | Some i => Ok (note_to_freq (reference_note + ((octave - 4) * semitones_per_octave + i))%Z)
  end.

(** midi_note.py:758-776 is_four_eighth_note (tempo and the second entry of the time signature are
    not 0). *)
Definition is_four_eighth_note (note : Z) (tempo : R) (den : Z) : Prop :=
  let beat := 60 / tempo in
  let quarter := beat * 4 / IZR den in
  let expected := 1 / note_to_freq note in
  Rabs (expected - quarter) < (1 / 10) * quarter.
