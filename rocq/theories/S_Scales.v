(** Specifications for note names, scales and chords (C61-C63, C105-C109). *)
From Coq Require Import Permutation Ascii.
From Verif Require Import PyBase M_Scales.
Open Scope Z_scope.

(** The white keys and their pitch classes; a sharp raises by one (E and B have no sharp). *)
Definition natural (s : string) (k : Z) : Prop := In (s, k) [("C", 0); ("D", 2); ("E", 4); ("F", 5); ("G", 7); ("A", 9); ("B", 11)]%string.
Definition spelled (k : Z) (s : string) : Prop :=
  natural s k \/ exists l j, natural l j /\ j <> 4 /\ j <> 11 /\ k = j + 1 /\ s = (l ++ "#")%string.
(** Semitones between neighbouring degrees of each scale, up to the octave. *)
Definition steps (t : scale_type) : list Z :=
  match t with
  | MAJOR => [2; 2; 1; 2; 2; 2; 1]
  | MINOR | AEOLIAN => [2; 1; 2; 2; 1; 2; 2]
  | DORIAN => [2; 1; 2; 2; 2; 1; 2]
  | PHRYGIAN => [1; 2; 2; 2; 1; 2; 2]
  | LYDIAN => [2; 2; 2; 1; 2; 2; 1]
  | MIXOLYDIAN => [2; 2; 1; 2; 2; 1; 2]
  | LOCRIAN => [1; 2; 2; 1; 2; 2; 2]
  | HARMONIC_MINOR => [2; 1; 2; 2; 1; 3; 1]
  | MELODIC_MINOR => [2; 1; 2; 2; 2; 2; 1]
  end.
(** Semitones from the root to degree [i] (counted from 0). *)
Definition degree (t : scale_type) (i : nat) : Z := fold_right Z.add 0 (firstn i (steps t)).
(** The scale a caller names: by member or by its value. *)
Definition designates (a : scale_arg) (t : scale_type) : Prop := a = SType t \/ a = SStr (scale_value t).
(** The root a caller names: 0..11, or a note name in either case. *)
Definition root_is (r : root) (p : Z) : Prop :=
  (r = RInt p /\ 0 <= p <= 11) \/ exists s, r = RStr s /\ spelled p (upper s).
(** Quality of a triad by its two thirds. *)
Definition quality (a b c : Z) (q : string) : Prop :=
  In ((b - a) mod 12, (c - b) mod 12, q) [(4, 3, "maj"); (3, 4, "min"); (3, 3, "dim"); (4, 4, "aug")]%string.
(** Iterating over a set yields each member once. *)
Definition iterates (it : iter_order) : Prop := forall l, Permutation l (it l).
(** Interval names that a chord may be given by, in capitals, with their semitones. *)
Definition simple_name (s : string) (v : Z) : Prop :=
  In (s, v) [("P1", 0); ("M2", 2); ("M3", 4); ("P4", 5); ("A4", 6); ("P5", 7); ("A5", 8); ("M6", 9); ("M7", 11); ("P8", 12)]%string.
(** The semitones an element of an interval collection stands for. *)
Definition stands_for (e : ielem) (v : Z) : Prop :=
  (e = IVal v /\ 0 <= v <= 12) \/ exists s, e = IStr s /\ simple_name (upper s) v.
(** All strings, or all intervals. *)
Definition uniform (l : list ielem) : Prop := (forall e, In e l -> exists s, e = IStr s) \/ (forall e, In e l -> exists v, e = IVal v).
(** Semitones of the chords with a one-letter type. *)
Definition one_letter (c : Ascii.ascii) (ks : list Z) : Prop :=
  In (c, ks) [("M", [0; 4; 7]); ("m", [0; 3; 7]); ("7", [0; 4; 7; 10]); ("6", [0; 4; 7; 9])]%char.
(** Note [k] of a triad on degree [i] of a scale on root [p] (k = 0, 2, 4). *)
Definition scale_note (t : scale_type) (p : Z) (i k : nat) : Z := (p + degree t ((i + k) mod 7)) mod 12.

(** ** Interval names and chord symbols of music theory *)
(** Semitones of the perfect or major interval of a diatonic number (1 unison, 8 octave, ...). *)
Definition diatonic (k : Z) : Z := 12 * ((k - 1) / 7) + nth (Z.to_nat ((k - 1) mod 7)) [0; 2; 4; 5; 7; 9; 11] 0.
(** Unisons, fourths, fifths and their compounds are perfect; they have no major or minor form. *)
Definition perfect_number (k : Z) : bool := existsb (Z.eqb ((k - 1) mod 7)) [0; 3; 4].
Definition interval_size (quality : ascii) (k : Z) : option Z :=
  let d := diatonic k in
  if perfect_number k then
    if Ascii.eqb quality "P" then Some d else if Ascii.eqb quality "A" then Some (d + 1) else if Ascii.eqb quality "d" then Some (d - 1) else None
  else
    if Ascii.eqb quality "M" then Some d else if Ascii.eqb quality "m" then Some (d - 1)
    else if Ascii.eqb quality "A" then Some (d + 1) else if Ascii.eqb quality "d" then Some (d - 2) else None.
(** Semitones above the root of the notes of a chord symbol. *)
Definition standard_tones : list (string * list Z) :=
  [("M", [0; 4; 7]); ("m", [0; 3; 7]); ("7", [0; 4; 7; 10]); ("M7", [0; 4; 7; 11]); ("m7", [0; 3; 7; 10]); ("m7b5", [0; 3; 6; 10]);
   ("dim7", [0; 3; 6; 9]); ("aug7", [0; 4; 8; 10]); ("6", [0; 4; 7; 9]); ("m6", [0; 3; 7; 9]);
   ("9", [0; 4; 7; 10; 14]); ("M9", [0; 4; 7; 11; 14]); ("m9", [0; 3; 7; 10; 14]);
   ("11", [0; 4; 7; 10; 14; 17]); ("M11", [0; 4; 7; 11; 14; 17]); ("m11", [0; 3; 7; 10; 14; 17]);
   ("13", [0; 4; 7; 10; 14; 17; 21]); ("M13", [0; 4; 7; 11; 14; 17; 21]); ("m13", [0; 3; 7; 10; 14; 17; 21]);
   ("add9", [0; 4; 7; 14]); ("sus2", [0; 2; 7]); ("sus4", [0; 5; 7]); ("7sus4", [0; 5; 7; 10])]%string.
(** [tones] climbs from the root by [steps]. *)
Fixpoint climb (from : Z) (steps : list Z) : list Z := from :: match steps with [] => [] | s :: r => climb (from + s) r end.
