(** Model of neural_graph_composer/midi/midi_scales.py: intervals, scales, chords and note names. *)
From Coq Require Import Ascii.
From Verif Require Import PyBase M_Chord M_Experiments.
Open Scope Z_scope.

(** class ScaleType, midi_scales.py:37-48 *)
Inductive scale_type : Type :=
| MAJOR | MINOR | DORIAN | PHRYGIAN | LYDIAN | MIXOLYDIAN | AEOLIAN | LOCRIAN | HARMONIC_MINOR | MELODIC_MINOR.
(** midi_scales.py:37-48 *)
Definition scale_types : list scale_type := [MAJOR; MINOR; DORIAN; PHRYGIAN; LYDIAN; MIXOLYDIAN; AEOLIAN; LOCRIAN; HARMONIC_MINOR; MELODIC_MINOR].
(** member values, midi_scales.py:39-48 *)
Definition scale_value (t : scale_type) : string :=
  match t with
  | MAJOR => "major" | MINOR => "minor" | DORIAN => "dorian" | PHRYGIAN => "phrygian" | LYDIAN => "lydian" | MIXOLYDIAN => "mixolydian"
  | AEOLIAN => "aeolian" | LOCRIAN => "locrian" | HARMONIC_MINOR => "harmonic_minor" | MELODIC_MINOR => "melodic_minor"
  end%string.
(** member names, midi_scales.py:39-48 *)
Definition scale_name (t : scale_type) : string :=
  match t with
  | MAJOR => "MAJOR" | MINOR => "MINOR" | DORIAN => "DORIAN" | PHRYGIAN => "PHRYGIAN" | LYDIAN => "LYDIAN" | MIXOLYDIAN => "MIXOLYDIAN"
  | AEOLIAN => "AEOLIAN" | LOCRIAN => "LOCRIAN" | HARMONIC_MINOR => "HARMONIC_MINOR" | MELODIC_MINOR => "MELODIC_MINOR"
  end%string.
(** midi_scales.py:39-48 *)
Definition pick (f : scale_type -> string) (s : string) : option scale_type := find (fun t => String.eqb (f t) s) scale_types.
(** ScaleType(s) and ScaleType[s], midi_scales.py:570, 700, 759, 799 *)
Definition by_value (s : string) : res scale_type := match pick scale_value s with Some t => Ok t | None => Err ValueError end.
(** midi_scales.py:39-48 *)
Definition by_name (s : string) : res scale_type := match pick scale_name s with Some t => Ok t | None => Err KeyError end.

(** str.upper(), on ASCII characters (simplification: other characters are left alone).
    Used at midi_scales.py:570, 608-610, 618, 703, 762, 802. *)
Definition up_char (c : ascii) : ascii :=
  let n := nat_of_ascii c in if (Nat.leb 97 n && Nat.leb n 122)%bool then ascii_of_nat (n - 32) else c.
(** midi_scales.py:39-48 *)
Fixpoint upper (s : string) : string := match s with EmptyString => EmptyString | String c r => String (up_char c) (upper r) end.

(** class Interval, midi_scales.py:151-197.  Members with equal values are aliases of the first, so a member is
    determined by its value; the values are 0..22. *)
Definition interval_names : list (string * Z) :=
  [("P1", 0); ("m2", 1); ("M2", 2); ("m3", 3); ("M3", 4); ("P4", 5); ("Tritone", 6); ("P5", 7); ("A5", 8); ("m6", 8); ("M6", 9); ("m7", 10);
   ("M7", 11); ("P8", 12); ("M9", 14); ("m9", 13); ("m10", 15); ("M10", 16); ("d12", 11); ("P11", 17); ("A11", 18); ("M11", 17); ("m11", 15);
   ("m13", 20); ("M13", 21); ("P13", 19); ("A13", 20); ("m14", 21); ("M14", 22); ("A4", 6); ("d5", 6); ("d7", 10)]%string.
(** Interval[name], midi_scales.py:618 *)
Definition interval_by_name (s : string) : res Z := match dict_get String.eqb s interval_names with Some v => Ok v | None => Err KeyError end.
(** midi_scales.py:151-197 *)
Definition P1 := 0. Definition m2 := 1. Definition M2 := 2. Definition m3 := 3. Definition M3 := 4. Definition P4 := 5. Definition A4 := 6. Definition d5 := 6.
(** midi_scales.py:151-197 *)
Definition P5 := 7. Definition A5 := 8. Definition m6 := 8. Definition M6 := 9. Definition m7 := 10. Definition d7 := 10. Definition M7 := 11. Definition P8 := 12.
(** midi_scales.py:151-197 *)
Definition M9 := 14. Definition P11 := 17. Definition M13 := 21.

(** MusicTheory.note_names and pitch_names, midi_scales.py:244 and 427-440 *)
Definition note_names : list string := ["C"; "C#"; "D"; "D#"; "E"; "F"; "F#"; "G"; "G#"; "A"; "A#"; "B"]%string.
(** midi_scales.py:244, 427-440 *)
Definition pitch_names : list (Z * string) :=
  [(0, "C"); (1, "C#"); (2, "D"); (3, "D#"); (4, "E"); (5, "F"); (6, "F#"); (7, "G"); (8, "G#"); (9, "A"); (10, "A#"); (11, "B")]%string.
(** pitch_to_note_name, midi_scales.py:531 *)
Definition pitch_of_name (s : string) : option Z := dict_get String.eqb s (map (fun kv => (snd kv, fst kv)) pitch_names).
(** MusicTheory.intervals, midi_scales.py:247-263: keys are members, so equal values are one key. *)
Definition intervals : list (Z * Z) := [(P1, 0); (m2, 1); (M2, 2); (m3, 3); (M3, 4); (P4, 5); (A4, 6); (P5, 7); (A5, 8); (M6, 9); (m7, 10); (M7, 11); (P8, 12)].
(** midi_scales.py:247-263 *)
Definition semitones (i : Z) : res Z := match dict_get Z.eqb i intervals with Some v => Ok v | None => Err KeyError end.
(** MusicTheory.scale_intervals, midi_scales.py:266-317; a frozenset is the list of its members, in the order written *)
Definition scale_intervals (t : scale_type) : list Z :=
  match t with
  | MAJOR => [P1; M2; M3; P4; P5; M6; M7]
  | MINOR => [P1; M2; m3; P4; P5; m6; m7]
  | DORIAN => [P1; M2; m3; P4; P5; M6; m7]
  | PHRYGIAN => [P1; m2; m3; P4; P5; m6; m7]
  | LYDIAN => [P1; M2; M3; A4; P5; M6; M7]
  | MIXOLYDIAN => [P1; M2; M3; P4; P5; M6; m7]
  | AEOLIAN => [P1; M2; m3; P4; P5; m6; m7]
  | LOCRIAN => [P1; m2; m3; P4; d5; m6; m7]
  | HARMONIC_MINOR => [P1; M2; m3; P4; P5; m6; M7]
  | MELODIC_MINOR => [P1; M2; m3; P4; P5; M6; M7]
  end.
(** MusicTheory.scales, midi_scales.py:320-331 *)
Definition scales (t : scale_type) : list Z :=
  match t with
  | MAJOR => [0; 2; 4; 5; 7; 9; 11]
  | MINOR => [0; 2; 3; 5; 7; 8; 10]
  | DORIAN => [0; 2; 3; 5; 7; 9; 10]
  | PHRYGIAN => [0; 1; 3; 5; 7; 8; 10]
  | LYDIAN => [0; 2; 4; 6; 7; 9; 11]
  | MIXOLYDIAN => [0; 2; 4; 5; 7; 9; 10]
  | AEOLIAN => [0; 2; 3; 5; 7; 8; 10]
  | LOCRIAN => [0; 1; 3; 5; 6; 8; 10]
  | HARMONIC_MINOR => [0; 2; 3; 5; 7; 8; 11]
  | MELODIC_MINOR => [0; 2; 3; 5; 7; 9; 11]
  end.
(** MusicTheory.chords, midi_scales.py:349-360 *)
Definition chords (t : scale_type) : list string :=
  match t with
  | MAJOR => ["M"; "m"; "m"; "M"; "M"; "m"; "dim"]
  | MINOR => ["m"; "dim"; "M"; "m"; "m"; "M"; "M"]
  | DORIAN => ["M"; "m"; "m"; "M"; "M"; "dim"; "m"]
  | PHRYGIAN => ["m"; "M"; "dim"; "m"; "m"; "M"; "M"]
  | LYDIAN => ["M"; "M"; "m"; "dim"; "M"; "m"; "m"]
  | MIXOLYDIAN => ["M"; "m"; "dim"; "m"; "M"; "m"; "M"]
  | AEOLIAN => ["m"; "dim"; "M"; "m"; "m"; "M"; "M"]
  | LOCRIAN => ["dim"; "M"; "m"; "m"; "dim"; "M"; "m"]
  | HARMONIC_MINOR => ["m"; "dim"; "aug"; "m"; "M"; "M"; "dim"]
  | MELODIC_MINOR => ["m"; "m"; "aug"; "M"; "M"; "dim"; "dim"]
  end%string.
(** MusicTheory.chord_name_mapping, midi_scales.py:363-392 *)
Definition chord_name_mapping : list (string * string) :=
  [("M", "maj"); ("m", "min"); ("dim", "dim"); ("aug", "aug"); ("sus2", "sus2"); ("sus4", "sus4"); ("7", "7"); ("maj7", "maj7"); ("min7", "min7");
   ("dom7", "dom7"); ("aug7", "aug7"); ("dim7", "dim7"); ("hdim7", "hdim7"); ("minmaj7", "minmaj7"); ("11", "11"); ("maj11", "maj11"); ("min11", "min11");
   ("13", "13"); ("maj13", "maj13"); ("min13", "min13"); ("dom9", "dom9"); ("maj9", "maj9"); ("min9", "min9"); ("dom#9", "dom#9"); ("domb9", "domb9");
   ("dom13", "dom13"); ("maj6", "maj6"); ("min6", "min6")]%string.
(** MusicTheory.chord_intervals, midi_scales.py:446-470, in order *)
Definition chord_intervals : list (string * list Z) :=
  [("M", [4; 3]); ("m", [3; 4]); ("7", [4; 3; 3]); ("M7", [4; 3; 4]); ("m7", [3; 4; 3]); ("m7b5", [3; 3; 4]); ("dim7", [3; 3; 3]); ("aug7", [4; 3; 4]);
   ("6", [4; 3; 2]); ("m6", [3; 4; 2]); ("9", [4; 3; 3; 4]); ("M9", [4; 3; 4; 3]); ("m9", [3; 4; 3; 4]); ("11", [4; 3; 3; 4; 3]); ("M11", [4; 3; 4; 3; 3]);
   ("m11", [3; 4; 3; 4; 3]); ("13", [4; 3; 3; 4; 3; 4]); ("M13", [4; 3; 4; 3; 3; 4]); ("m13", [3; 4; 3; 4; 3; 4]); ("add9", [4; 3; 7]); ("sus2", [2; 5]);
   ("sus4", [5; 2]); ("7sus4", [5; 2; 3])]%string.
(** MusicTheory.chord_intervals_mapping, midi_scales.py:477-501 *)
Definition chord_intervals_mapping : list (string * list Z) :=
  [("M", [P1; M3; P5]); ("m", [P1; m3; P5]); ("7", [P1; M3; P5; m7]); ("M7", [P1; M3; P5; M7]); ("m7", [P1; m3; P5; m7]); ("m7b5", [P1; m3; d5; m7]);
   ("dim7", [P1; m3; d5; d7]); ("aug7", [P1; M3; A5; m7]); ("6", [P1; M3; P5; M6]); ("m6", [P1; m3; P5; M6]); ("9", [P1; M3; P5; m7; M9]);
   ("M9", [P1; M3; P5; M7; M9]); ("m9", [P1; m3; P5; m7; M9]); ("11", [P1; M3; P5; m7; M9; P11]); ("M11", [P1; M3; P5; M7; M9; P11]);
   ("m11", [P1; m3; P5; m7; M9; P11]); ("13", [P1; M3; P5; m7; M9; M13]); ("M13", [P1; M3; P5; M7; M9; M13]); ("m13", [P1; m3; P5; m7; M9; M13]);
   ("add9", [P1; M3; P5; M9]); ("sus2", [P1; M2; P5]); ("sus4", [P1; P4; P5]); ("7sus4", [P1; P4; P5; m7])]%string.

(** A root argument, a scale argument, an element of an interval collection: midi_scales.py:533-622, 685-716. *)
Inductive root : Type := RInt (z : Z) | RStr (s : string).
(** midi_scales.py:477-501 *)
Inductive scale_arg : Type := SStr (s : string) | SType (t : scale_type).
(** midi_scales.py:477-501 *)
Inductive ielem : Type := IStr (s : string) | IVal (v : Z) | IOther.

(** The order in which Python iterates over a frozenset: an argument (it depends on hashes). midi_scales.py:266-317, 710 *)
Definition iter_order : Type := list Z -> list Z.

(** intervals_from_scale, midi_scales.py:533-575 (every member is a key of scale_intervals, so 572-574 never raises) *)
Definition intervals_from_scale (a : scale_arg) : res (list Z) :=
  match a with
  | SStr s => bind (by_name (upper s)) (fun t => Ok (scale_intervals t))
  | SType t => Ok (scale_intervals t)
  end.

(** [x for x in l] with an exception: midi_scales.py:577-622 *)
Fixpoint each {A B} (f : A -> res B) (l : list A) : res (list B) :=
  match l with [] => Ok [] | a :: r => bind (f a) (fun b => bind (each f r) (fun q => Ok (b :: q))) end.

(** midi_scales.py:533-575, 572-574 *)
Definition valid_name (s : string) : bool := existsb (String.eqb s) (map snd pitch_names).
(** chord_pitch_from_interval, midi_scales.py:577-622; [l] lists the collection in iteration order; a collection
    that is neither a list nor a frozenset raises TypeError as well (not modelled). *)
Definition is_str (e : ielem) : bool := match e with IStr _ => true | _ => false end.
(** midi_scales.py:577-622 *)
Definition is_val (e : ielem) : bool := match e with IVal _ => true | _ => false end.
(** midi_scales.py:577-622 *)
Definition resolve_root (r : root) : res Z :=
  match r with
  | RStr s => if negb (valid_name (upper s)) then Err ValueError else match pitch_of_name (upper s) with Some p => Ok p | None => Err KeyError end
  | RInt z => if negb ((0 <=? z) && (z <=? 11)) then Err ValueError else Ok z
  end.
(** midi_scales.py:577-622 *)
Definition interval_pitch (root : Z) (e : ielem) : res Z :=
  bind (match e with IStr s => interval_by_name (upper s) | IVal v => Ok v | IOther => Err KeyError end) (fun i =>
  bind (semitones i) (fun p => Ok ((root + p) mod 12))).
(** midi_scales.py:577-622 *)
Definition chord_pitch_from_interval (r : root) (l : list ielem) : res (list Z) :=
  if negb (forallb is_str l) && negb (forallb is_val l) then Err TypeError
  else bind (resolve_root r) (fun p => each (interval_pitch p) l).

(** get_chord_intervals, midi_scales.py:624-638 *)
Definition get_chord_intervals (s : string) : res (list Z) := match dict_get String.eqb s chord_intervals with Some l => Ok l | None => Err KeyError end.
(** midi_scales.py:624-638 *)
Fixpoint zlist_eqb (a b : list Z) : bool :=
  match a, b with [], [] => true | x :: r, y :: s => (x =? y) && zlist_eqb r s | _, _ => false end.
(** get_chord_name, midi_scales.py:640-661 (lists of ints) *)
Definition get_chord_name (l : list Z) : option string := option_map fst (find (fun kv => zlist_eqb (snd kv) l) chord_intervals).
(** chord_intervals_reverse, midi_scales.py:530: a dict comprehension, later entries overwrite *)
Definition chord_intervals_reverse : list (list Z * string) := fold_left (fun d kv => dict_set zlist_eqb (snd kv) (fst kv) d) chord_intervals [].
(** get_chord_name_from_intervals, midi_scales.py:663-683 *)
Definition get_chord_name_from_intervals (l : list Z) : option string := dict_get zlist_eqb l chord_intervals_reverse.

(** note_names[k], midi_scales.py:710-716 *)
Definition note_name (k : Z) : res string := match nth_error note_names (Z.to_nat k) with Some s => if k <? 0 then Err IndexError else Ok s | None => Err IndexError end.
(** note_names.index(s), midi_scales.py:708, 733, 817 *)
Fixpoint index_of (s : string) (i : Z) (l : list string) : res Z :=
  match l with [] => Err ValueError | x :: r => if String.eqb x s then Ok i else index_of s (i + 1) r end.
(** midi_scales.py:663-683 *)
Definition note_index (s : string) : res Z := index_of s 0 note_names.

(** sorted(intervals, key=lambda x: MusicTheory.intervals[x]) then the notes, midi_scales.py:710-716, 767-772, 822-824 *)
Definition key_lt (a b : Z * Z) : bool := snd a <? snd b.
(** midi_scales.py:710-716, 767-772, 822-824 *)
Definition sorted_intervals (l : list Z) : res (list Z) :=
  bind (each (fun x => bind (semitones x) (fun k => Ok (x, k))) l) (fun ks => Ok (map fst (py_sort key_lt ks))).
(** midi_scales.py:710-716, 767-772, 822-824 *)
Definition notes_on (base : Z) (l : list Z) : res (list string) :=
  bind (sorted_intervals l) (each (fun i => bind (semitones i) (fun s => note_name ((base + s) mod 12)))).
(** notes_from_scale, midi_scales.py:685-716: an int root passes the range check, but no list entry equals it *)
Definition notes_from_scale (it : iter_order) (r : root) (a : scale_arg) : res (list string) :=
  bind (match a with SStr s => by_value s | SType t => Ok t end) (fun t =>
  match r with
  | RStr s =>
      if negb (valid_name (upper s)) then Err ValueError
      else bind (note_index s) (fun b => bind (intervals_from_scale (SType t)) (fun l => notes_on b (it l)))
  | RInt z => if negb ((0 <=? z) && (z <=? 11)) then Err ValueError else Err ValueError
  end).

(** chord_from_scale, midi_scales.py:718-743: the last character is the chord type, the rest the root *)
Definition chord_from_scale (chord_name : string) : res (list string) :=
  let n := String.length chord_name in
  match n with
  | O => Err IndexError
  | S k =>
      bind (note_index (substring 0 k chord_name)) (fun b =>
      match dict_get String.eqb (substring k 1 chord_name) chord_intervals_mapping with
      | None => Err AssertionError
      | Some l => bind (chord_pitch_from_interval (RInt b) (map IVal l)) (fun ps =>
                  match ps with [] => Err ValueError | _ => each note_name ps end)
      end)
  end.

(** triads_from_scale, midi_scales.py:745-779 *)
Definition nth_note (l : list string) (k : nat) : res string := match nth_error l k with Some s => Ok s | None => Err IndexError end.
(** midi_scales.py:745-779 *)
Definition triad (l : list string) (n i : nat) : res (list string) := each (nth_note l) [i mod n; (i + 2) mod n; (i + 4) mod n]%nat.
(** midi_scales.py:745-779 *)
Definition root_pitch (r : root) : res Z :=
  match r with RStr s => match pitch_of_name (upper s) with Some p => Ok p | None => Err KeyError end | RInt z => Ok z end.
(** midi_scales.py:745-779 *)
Definition triads_from_scale (it : iter_order) (r : root) (a : scale_arg) : res (list string) :=
  bind (match a with SStr s => by_value s | SType t => Ok t end) (fun t =>
  bind (root_pitch r) (fun p =>
  if negb ((0 <=? p) && (p <=? 11)) then Err ValueError
  else bind (notes_on p (it (scale_intervals t))) (fun notes =>
       each (fun i => bind (triad notes (List.length notes) i) (fun q => Ok (String.concat "" q))) (List.seq 0 (List.length notes))))).

(** triads_from_scale_tuple, midi_scales.py:781-833 *)
Definition triads_from_scale_tuple (it : iter_order) (r : root) (a : scale_arg) : res (list (list string * string)) :=
  bind (match a with SStr s => by_value s | SType t => Ok t end) (fun t =>
  bind (match r with RStr _ => root_pitch r | RInt z => if negb ((0 <=? z) && (z <=? 11)) then Err ValueError else Ok z end) (fun p =>
  bind (note_name p) (fun name =>
  bind (note_index name) (fun b =>
  bind (notes_on b (it (scale_intervals t))) (fun notes =>
  each (fun i => bind (triad notes 7 i) (fun q =>
                 bind (nth_note (chords t) i) (fun c =>
                 match dict_get String.eqb c chord_name_mapping with Some n => Ok (q, n) | None => Err KeyError end)))
       (List.seq 0 (List.length notes))))))).

(** chord_from_scale_name_extended, midi_scales.py:835-862 *)
Definition py_index (l : list string) (k : Z) : res string := nth_note l (Z.to_nat (k mod Z.of_nat (List.length l))).
(** midi_scales.py:835-862 *)
Definition subset_str (a b : list string) : bool := forallb (fun x => existsb (String.eqb x) b) a.
(** midi_scales.py:835-862 *)
Fixpoint extended (root_note : string) (scale_notes : list string) (cs : list (string * list Z)) : res (list string) :=
  match cs with
  | [] => Ok []
  | (name, ks) :: r =>
      bind (each (py_index scale_notes) ks) (fun ns =>
      bind (extended root_note scale_notes r) (fun q => Ok (if subset_str ns scale_notes then (root_note ++ name)%string :: q else q)))
  end.
(** midi_scales.py:835-862 *)
Definition chord_from_scale_name_extended (it : iter_order) (root_note : string) (a : scale_arg) : res (list string) :=
  bind (notes_from_scale it (RStr root_note) a) (fun notes => extended root_note notes chord_intervals).

(** pitch_to_note, midi_scales.py:864-874 *)
Definition pitch_to_note (pitch : Z) : res string :=
  match dict_get Z.eqb (pitch mod 12) pitch_names with Some n => Ok (n ++ py_str (pitch / 12))%string | None => Err KeyError end.

(** from_semitones, midi_scales.py:912-928: members in definition order, found by value *)
Definition from_semitones (s : Z) : res Z := match find (fun kv => snd kv =? s) interval_names with Some kv => Ok (snd kv) | None => Err ValueError end.
(** compound_interval_from_bases, midi_scales.py:930-942 *)
Definition compound_interval_from_bases (a b : Z) : res Z :=
  let s := a + b in let octaves := s / 12 in let s := s - octaves * 12 in from_semitones (octaves * 12 + s).
(** compound_interval_to_base, midi_scales.py:944-954 *)
Definition compound_interval_to_base (i : Z) : res (Z * Z) := if i <? 0 then Err ValueError else Ok (i mod 12, i / 12).
(** base_to_compound_interval, midi_scales.py:956-968 *)
Definition base_to_compound_interval (base octave : Z) : res Z :=
  if (base <? 0) || (11 <? base) then Err ValueError else if octave <? 0 then Err ValueError else Ok (octave * 12 + base).
(** bases, midi_scales.py:970-986; None when no branch returns *)
Definition bases (i : Z) : option (list Z) :=
  let v := i mod 12 in
  if (i =? P1) || (i =? P8) then Some [i]
  else if existsb (Z.eqb v) [1; 4; 5; 8; 11] then Some [M2; i - M2]
  else if existsb (Z.eqb v) [2; 3; 6; 7; 9; 10] then Some [M2; M3; i - M2 - M3]
  else if v =? 0 then Some [] else None.
(** inverse_compound_interval, midi_scales.py:988-1021 *)
Definition zsum (l : list Z) : Z := fold_right Z.add 0 l.
(** midi_scales.py:970-986 *)
Definition inverse_compound_interval (i : Z) : res Z :=
  match bases i with
  | None => Err TypeError
  | Some b =>
      let difference := i - zsum b in
      let inv := map (fun v => 12 - v) b in
      Ok (zsum (if difference =? 0 then inv else inv ++ [12 - difference]))
  end.
(** list_of_chords, midi_scales.py:1023-1047: chord_intervals has no integer key *)
Definition list_of_chords (r : Z) (l : list ielem) : res (list string) :=
  bind (chord_pitch_from_interval (RInt r) l) (fun ps => match ps with [] => Ok [] | _ => Err KeyError end).
