(** Model of the remaining computations of neural_graph_composer/midi/midi_note.py (MidiNote):
    step and beat arithmetic and construction from a JSON dictionary. *)
From Coq Require Import Qround.
From Verif Require Import PyBase M_Note.
Open Scope Z_scope.

(** decimal ROUND_HALF_UP: nearest integer, ties away from zero. [midi_note.py:386] *)
Definition round_half_away (x : Q) : Z :=
  if Qltb x 0 then - Qfloor (- x + (1 # 2)) else Qfloor (x + (1 # 2)).

(** midi_note.py:377-386 steps_to_seconds.  The quotient is exact here; Decimal keeps 28 digits.
    0/0 raises decimal.InvalidOperation, merged with DivisionByZero (a ZeroDivisionError). *)
Definition steps_to_seconds (steps sps : Z) : res Q :=
  if sps =? 0 then Err ZeroDivisionError
  else Ok (inject_Z (round_half_away ((inject_Z steps / inject_Z sps) * 100000)) / 100000)%Q.

(** midi_note.py:651-658 duration_in_seconds, 660-667 beat_duration. *)
Definition n_duration_in_seconds (n : note) (tempo : Q) : res Q :=
  if Qeq_bool tempo 0 then Err ZeroDivisionError else Ok (60 * n_duration n / tempo)%Q.
(** midi_note.py:651-658, 660-667 *)
Definition n_beat_duration (n : note) (tempo : Q) : res Q :=
  if Qeq_bool tempo 0 then Err ZeroDivisionError
  else Ok (60 / tempo * (inject_Z (n_num n) / inject_Z (n_den n)))%Q.

(** numpy.arange(a, b, step) for step > 0: ceil((b-a)/step) values a, a+step, ...; numpy.diff;
    numpy.mean, which is NaN (None here) on an empty array. [midi_note.py:680-681] *)
Definition np_arange (a b step : Q) : list Q :=
  map (fun i => (a + inject_Z (Z.of_nat i) * step)%Q) (seq 0 (Z.to_nat (Qceiling ((b - a) / step)))).
(** midi_note.py:680-681 *)
Fixpoint np_diff (l : list Q) : list Q :=
  match l with a :: (b :: _) as r => (b - a)%Q :: np_diff r | _ => [] end.
(** midi_note.py:680-681 *)
Definition np_mean (l : list Q) : option Q :=
  match l with [] => None
  | _ => Some (fold_left Qplus l 0 / inject_Z (Z.of_nat (List.length l)))%Q end.

(** midi_note.py:669-682 bpm; None is NaN. *)
Definition n_bpm (n : note) : res (option Q) :=
  match n_beat_duration n 120 with
  | Err e => Err e
  | Ok bd => match np_mean (np_diff (np_arange (n_start n) (n_end n) bd)) with
             | None => Ok None | Some m => Ok (Some (60 / m)%Q) end
  end.

(** midi_note.py:625-649 is_four_quarter_note: 60/4 seconds per beat times the numerator. *)
Definition n_is_four_quarter (n : note) : bool :=
  if negb (n_den n =? 4) || negb (n_num n =? 4) then false
  else
    let beat := (60 / inject_Z (n_den n))%Q in
    qclose (1 # 1000000000) 0 (n_duration n) (inject_Z (n_num n) * beat).

(** A JSON dictionary, one optional entry per key midi_note.py:785-804 reads; other keys are
    ignored.  Entries have the type MidiNote expects (numbers, booleans), or are absent; an entry
    that is null behaves like an absent one only for the last six keys, and is not modelled. *)
Record note_json : Type := mkJ {
  j_pitch : option Z; j_start : option Q; j_end : option Q; j_program : option Z;
  j_instrument : option Z; j_velocity : option Z;
  j_qs : option Q; j_qe : option Q; j_voice : option Z; j_num : option Z; j_den : option Z;
  j_drum : option bool }.
(** midi_note.py:785-804 from_json: the six subscripted keys raise KeyError, .get gives None.
    A None numerator or denominator fails the isinstance assertions 122 and 126.  At 173
    `quantized_start_step >= 0 and quantized_end_step >= 0` raises TypeError on a None start, and on
    a None end unless the start is negative.  A None voice or end step is stored: the result pairs
    the note with the stored voice and end step (in the note itself 0 resp. -1 stand for None). *)
Definition n_from_json (j : note_json) : res (note * option Z * option Q) :=
  match j_pitch j, j_start j, j_end j, j_program j, j_instrument j, j_velocity j with
  | Some p, Some s, Some e, Some pr, Some i, Some v =>
    if Qle_bool e s then Err AssertionError
    else match j_num j, j_den j with
    | Some nu, Some de =>
      let dr := match j_drum j with Some b => b | None => false end in
      let vo := match j_voice j with Some v => v | None => 0 end in
      let qs := match j_qs j with Some a => a | None => (-1)%Q end in
      let qe := match j_qe j with Some a => a | None => (-1)%Q end in
      match n_new (mkN p v pr i vo nu de dr s e qs qe) with
      | Err x => Err x
      | Ok n =>
        match j_qs j, j_qe j with
        | None, _ => Err TypeError
        | Some a, None => if Qle_bool 0 a then Err TypeError else Ok (n, j_voice j, j_qe j)
        | Some _, Some _ => Ok (n, j_voice j, j_qe j)
        end
      end
    | _, _ => Err AssertionError
    end
  | _, _, _, _, _, _ => Err KeyError
  end.
