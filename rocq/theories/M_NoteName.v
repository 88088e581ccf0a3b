(** Model of the names of notes: MidiNote.pitch_name, the pitch setter and MidiNote.from_name
    (neural_graph_composer/midi/midi_note.py), with librosa's midi_to_note and note_to_midi by their documentation
    (key C:maj, sharps; a name is a letter, accidentals, an octave and cents).  Simplifications: a name is the list of
    its code points; digits are the ten ASCII ones, a trailing newline is not considered; the value with cents is
    exact; [None] is librosa's ParameterError; float pitches are not modelled. *)
From Verif Require Import PyBase M_Note.
Open Scope Z_scope.

(** A str. [midi_note.py:133, 701] *)
Definition uname : Type := list Z.
(** librosa.midi_to_note: the twelve names of C:maj, C, C sharp (U+266F), D, ... [midi_note.py:133] *)
Definition class_names : list uname :=
  [[67]; [67; 9839]; [68]; [68; 9839]; [69]; [70]; [70; 9839]; [71]; [71; 9839]; [65]; [65; 9839]; [66]].
(** str(n) of an int. [midi_note.py:133] *)
Fixpoint dec (fuel : nat) (n : Z) : uname :=
  match fuel with
  | O => []
  | S f => if n <? 10 then [48 + n] else dec f (n / 10) ++ [48 + n mod 10]
  end.
(** midi_note.py:133 *)
Definition str_of_int (n : Z) : uname :=
  if n <? 0 then 45 :: dec (S (Z.to_nat (- n))) (- n) else dec (S (Z.to_nat n)) n.
(** librosa.midi_to_note(p) of an int: the name of p mod 12 and the octave int(p / 12) - 1. [midi_note.py:133] *)
Definition midi_to_note (p : Z) : uname := nth (Z.to_nat (p mod 12)) class_names [] ++ str_of_int (Z.quot p 12 - 1).

(** librosa.note_to_midi: the letters, in both cases. [midi_note.py:701] *)
Definition letter (c : Z) : option Z :=
  if (c =? 67) || (c =? 99) then Some 0 else if (c =? 68) || (c =? 100) then Some 2
  else if (c =? 69) || (c =? 101) then Some 4 else if (c =? 70) || (c =? 102) then Some 5
  else if (c =? 71) || (c =? 103) then Some 7 else if (c =? 65) || (c =? 97) then Some 9
  else if (c =? 66) || (c =? 98) then Some 11 else None.
(** The accidentals: # and U+266F raise, b, ! and U+266D lower, U+1D12A and U+1D12B by two, U+266E is natural.
    [midi_note.py:701] *)
Definition accidental (c : Z) : option Z :=
  if (c =? 35) || (c =? 9839) then Some 1 else if (c =? 98) || (c =? 33) || (c =? 9837) then Some (-1)
  else if c =? 119082 then Some 2 else if c =? 119083 then Some (-2) else if c =? 9838 then Some 0 else None.
(** The accidentals at the front: their sum and the rest. [midi_note.py:701] *)
Fixpoint accidentals (l : uname) : Z * uname :=
  match l with
  | c :: r => match accidental c with Some a => let '(s, r') := accidentals r in (a + s, r') | None => (0, l) end
  | [] => (0, [])
  end.
(** The digits at the front: none, or their value and the rest. [midi_note.py:701] *)
Definition is_digit (c : Z) : bool := (48 <=? c) && (c <=? 57).
(** midi_note.py:701 *)
Fixpoint digits (acc : Z) (l : uname) : Z * uname :=
  match l with c :: r => if is_digit c then digits (10 * acc + (c - 48)) r else (acc, l) | [] => (acc, []) end.
(** midi_note.py:701 *)
Definition number (l : uname) : option (Z * uname) :=
  match l with c :: r => if is_digit c then Some (digits 0 l) else None | [] => None end.
(** A sign and digits. [midi_note.py:701] *)
Definition with_sign (l : uname) : option (Z * uname) :=
  match l with
  | c :: r => if c =? 43 then number r
              else if c =? 45 then match number r with Some (v, r') => Some (- v, r') | None => None end
              else None
  | [] => None
  end.
(** Digits, with or without a sign. [midi_note.py:701] *)
Definition maybe_sign (l : uname) : option (Z * uname) :=
  match with_sign l with Some x => Some x | None => number l end.
(** librosa.note_to_midi(name): the regular expression letter, accidentals, octave, cents (greedy), and
    12 * (octave + 1) + letter + accidentals + cents / 100 rounded; None is a ParameterError.  [midi_note.py:701] *)
Definition note_to_midi (name : uname) : option Z :=
  match name with
  | [] => None
  | c :: r =>
    match letter c with
    | None => None
    | Some k =>
      let '(a, r1) := accidentals r in
      let '(o, r2) := match maybe_sign r1 with Some x => x | None => (0, r1) end in
      match r2 with
      | [] => Some (12 * (o + 1) + k + a)
      | _ => match with_sign r2 with
             | Some (ct, []) => Some (round_half_even (inject_Z (12 * (o + 1) + k + a) + inject_Z ct / 100))
             | _ => None
             end
      end
    end
  end.

(** A note with its name; MidiNote(...). [midi_note.py:76-173] *)
Record named : Type := mkNamed { nm_note : note; nm_name : uname }.
(** midi_note.py:76-173; the name is that of the pitch clamped, 131-133. *)
Definition nm_new (a : note) : res named := bind (n_new a) (fun n => Ok (mkNamed n (midi_to_note (n_pitch n)))).
(** The mutating calls: none touches the name, in particular not the pitch setter, 585-588.
    [midi_note.py:251-620] *)
Definition nm_step (n : named) (o : n_op) : res unit * named :=
  let '(r, n') := n_step (nm_note n) o in (r, mkNamed n' (nm_name n)).
(** midi_note.py:251-620 *)
Definition nm_run (n : named) (ops : list n_op) : named := fold_left (fun n o => snd (nm_step n o)) ops n.
(** midi_note.py:555-579 make_copy: a new note. *)
Definition nm_copy (n : named) : res named := nm_new (nm_note n).
(** midi_note.py:684-710 from_name; the rest are the defaults of __init__, 76-89. *)
Definition from_name (name : uname) (start end_ : Q) (velocity program instrument : Z) (drum : bool) : option (res named) :=
  match note_to_midi name with
  | None => None
  | Some p => Some (nm_new (mkN p velocity program instrument 0 4 4 drum start end_ (-1) (-1)))
  end.
