(** Specification for MIDI events. *)
From Verif Require Import PyBase M_Events.
Open Scope Z_scope.

(** The MIDI ranges of a pitch bend. *)
Definition bend_ok (b : bend) : Prop :=
  -8191 <= b_amount b <= 8191 /\ 0 <= b_program b <= 127 /\ 0 <= b_instrument b <= 127 /\
  (forall t, b_time b = Some t -> (0 <= t)%Q).

(** General MIDI families, eight programs each. *)
Open Scope string_scope.
Definition gm_family_names : list string :=
  ["Piano"; "Chromatic Percussion"; "Organ"; "Guitar"; "Bass"; "Strings"; "Ensemble"; "Brass";
   "Reed"; "Pipe"; "Synth Lead"; "Synth Pad"; "Synth Effects"; "Ethnic"; "Percussive"; "Sound Effects"].
