(** Model of midi_control_change.py, midi_pitch_bend.py, midi_instruments.py,
    midi_time_signature.py and the tempo conversions of midi_utils.py (all under
    neural_graph_composer/midi).  Times and tempos are rationals (exact arithmetic). *)
From Coq Require Import Qround.
From Verif Require Import PyBase.
Open Scope Z_scope.

(** ** MidiControlChange *)
(** midi_control_change.py:182-215: attributes.  The description and the write-only bounds of
    the base class (40-49) are not modelled. *)
Record cc : Type := mkCC {
  cc_number : Z; cc_value : Z; cc_time : Q; cc_program : Z; cc_instrument : Z; cc_drum : bool;
  cc_step : Z; cc_qs : Z; cc_qe : Z; cc_quantized : bool; cc_seq : Z }.

(** midi_control_change.py:182-215 __init__. *)
Definition clamp255 (v : Z) : Z := Z.min (Z.max 0 v) 255.
(** midi_control_change.py:182-215 *)
Definition cc_new (number value : Z) (time : Q) (program instrument : Z) (drum : bool)
           (step qs qe : Z) : cc :=
  mkCC (clamp255 number) (clamp255 value) (Qmaxb 0 time) (clamp255 program) (clamp255 instrument)
       drum (Z.min (Z.max 1 step) 32) qs qe ((0 <=? qs) && (0 <=? qe)) 0.

(** midi_control_change.py:217-225 __lt__. *)
Definition cc_ltb (a b : cc) : bool :=
  if qclose_def (cc_time a) (cc_time b) then cc_seq a <? cc_seq b else Qltb (cc_time a) (cc_time b).
(** midi_control_change.py:227-243 __eq__. *)
Definition cc_eqb (a b : cc) : bool :=
  (cc_number a =? cc_number b) && (cc_value a =? cc_value b) && Qeq_bool (cc_time a) (cc_time b) &&
  (cc_program a =? cc_program b) && (cc_instrument a =? cc_instrument b) &&
  Bool.eqb (cc_drum a) (cc_drum b) && (cc_step a =? cc_step b) && (cc_qs a =? cc_qs b) && (cc_qe a =? cc_qe b).

(** midi_control_change.py:262-272 quantized_step setter. *)
Definition cc_set_step (c : cc) (v : Z) : res unit * cc :=
  if (v <? 1) || (32 <? v) then (Err ValueError, c)
  else (Ok tt, mkCC (cc_number c) (cc_value c) (cc_time c) (cc_program c) (cc_instrument c) (cc_drum c)
                    v (cc_qs c) (cc_qe c) (cc_quantized c) (cc_seq c)).
(** midi_control_change.py:282-297 quantized_start_step setter (the stored end is an int). *)
Definition cc_set_qs (c : cc) (v : Z) : res unit * cc :=
  if v <? 0 then (Err ValueError, c)
  else if cc_qe c <=? v then (Err ValueError, c)
  else (Ok tt, mkCC (cc_number c) (cc_value c) (cc_time c) (cc_program c) (cc_instrument c) (cc_drum c)
                    (cc_step c) v (cc_qe c) true (cc_seq c)).
(** midi_control_change.py:307-321 quantized_end_step setter. *)
Definition cc_set_qe (c : cc) (v : Z) : res unit * cc :=
  if v <? 0 then (Err ValueError, c)
  else if v <=? cc_qs c then (Err ValueError, c)
  else (Ok tt, mkCC (cc_number c) (cc_value c) (cc_time c) (cc_program c) (cc_instrument c) (cc_drum c)
                    (cc_step c) (cc_qs c) v true (cc_seq c)).

(** midi_control_change.py:329-333; int() truncates towards zero. *)
Definition Qtrunc (x : Q) : Z := if Qle_bool 0 x then Qfloor x else Qceiling x.
(** midi_control_change.py:329-333 *)
Definition cc_nearest_step (t : Q) (sps : Z) (amount : Q) : Z :=
  Qtrunc (t * inject_Z sps + (1 - amount))%Q.

(** A call sequence: stop at the first exception, keeping the state reached.
    [midi_control_change.py:256-410] *)
Definition andthen {A} (r : res unit * A) (k : A -> res unit * A) : res unit * A :=
  match r with (Ok _, a) => k a | (Err e, a) => (Err e, a) end.

(** midi_control_change.py:335-353 quantize_in_place (min_step is not used). *)
Definition cc_quantize_in_place (c : cc) (sps : Z) (amount : Q) : res unit * cc :=
  andthen (cc_set_qs c (cc_nearest_step (cc_time c) sps amount)) (fun c1 =>
  andthen (cc_set_qe c1 (cc_nearest_step (cc_time c1) sps amount)) (fun c2 =>
  andthen (cc_set_qs c2 (Z.max (cc_qs c2) 0)) (fun c3 =>
  if cc_qs c3 <? 0 then (Err AssertionError, c3)
  else if cc_qe c3 <? 0 then (Err AssertionError, c3)
  else andthen (if cc_qe c3 =? cc_qs c3 then cc_set_qe c3 (cc_qe c3 + 1) else (Ok tt, c3)) (fun c4 =>
  cc_set_step c4 sps)))).

(** midi_control_change.py:373-398 make_copy without arguments, 355-371 quantize,
    400-405 shift_time. *)
Definition cc_make_copy (c : cc) : cc :=
  cc_new (cc_number c) (cc_value c) (cc_time c) (cc_program c) (cc_instrument c) false 4 (cc_qs c) (cc_qe c).
(** midi_control_change.py:373-398, 355-371, 400-405 *)
Definition cc_quantize (c : cc) (sps : Z) (amount : Q) : res cc :=
  match cc_quantize_in_place (cc_make_copy c) sps amount with
  | (Ok _, c') => Ok c' | (Err e, _) => Err e end.
(** midi_control_change.py:373-398, 355-371, 400-405 *)
Definition cc_shift (c : cc) (d : Q) : cc :=
  mkCC (cc_number c) (cc_value c) (cc_time c + d)%Q (cc_program c) (cc_instrument c) (cc_drum c)
       (cc_step c) (cc_qs c) (cc_qe c) (cc_quantized c) (cc_seq c).

(** The mutating calls on one control change. [midi_control_change.py:256-410] *)
Inductive cc_op : Type := CStep (v : Z) | CQs (v : Z) | CQe (v : Z) | CQuant (sps : Z) (amount : Q) | CShift (d : Q).
(** midi_control_change.py:256-410 *)
Definition cc_do (c : cc) (o : cc_op) : res unit * cc :=
  match o with
  | CStep v => cc_set_step c v | CQs v => cc_set_qs c v | CQe v => cc_set_qe c v
  | CQuant s a => cc_quantize_in_place c s a | CShift d => (Ok tt, cc_shift c d)
  end.
(** midi_control_change.py:256-410 *)
Definition cc_run (c : cc) (ops : list cc_op) : cc := fold_left (fun c o => snd (cc_do c o)) ops c.

(** ** MidiPitchBend *)
(** midi_pitch_bend.py:14-65: attributes.  Array-valued times (52-55) are not modelled; a time of
    None becomes 0.0 (64), the setter (124-128) can store None. *)
Record bend : Type := mkB {
  b_amount : Z; b_program : Z; b_instrument : Z; b_time : option Q; b_drum : bool }.

(** midi_pitch_bend.py:134-138, 144-148, 124-128: setters. *)
Definition b_set_program (b : bend) (v : Z) : res unit * bend :=
  if (0 <=? v) && (v <=? 127) then (Ok tt, mkB (b_amount b) v (b_instrument b) (b_time b) (b_drum b))
  else (Err ValueError, b).
(** midi_pitch_bend.py:134-138, 144-148, 124-128 *)
Definition b_set_instrument (b : bend) (v : Z) : res unit * bend :=
  if (0 <=? v) && (v <=? 127) then (Ok tt, mkB (b_amount b) (b_program b) v (b_time b) (b_drum b))
  else (Err ValueError, b).
(** midi_pitch_bend.py:134-138, 144-148, 124-128 *)
Definition b_set_time (b : bend) (v : option Q) : res unit * bend :=
  match v with
  | Some t => if Qltb t 0 then (Err ValueError, b)
              else (Ok tt, mkB (b_amount b) (b_program b) (b_instrument b) v (b_drum b))
  | None => (Ok tt, mkB (b_amount b) (b_program b) (b_instrument b) None (b_drum b))
  end.
(** midi_pitch_bend.py:14-65 __init__; line 64 clips the time to [0, inf). *)
Definition b_new (amount program instrument : Z) (time : option Q) (drum : bool) : res bend :=
  if negb ((-8191 <=? amount) && (amount <=? 8191)) then Err ValueError
  else if negb ((0 <=? program) && (program <=? 127)) then Err ValueError
  else if negb ((0 <=? instrument) && (instrument <=? 127)) then Err ValueError
  else match time with
       | Some t => if Qltb t 0 then Err ValueError
                   else Ok (mkB amount (clamp255 program) (clamp255 instrument) (Some (Qmaxb t 0)) drum)
       | None => Ok (mkB amount (clamp255 program) (clamp255 instrument) (Some 0%Q) drum)
       end.
(** midi_pitch_bend.py:14-65, 64 *)
Inductive b_op : Type := BProgram (v : Z) | BInstrument (v : Z) | BTime (v : option Q).
(** midi_pitch_bend.py:14-65, 64 *)
Definition b_do (b : bend) (o : b_op) : res unit * bend :=
  match o with BProgram v => b_set_program b v | BInstrument v => b_set_instrument b v | BTime v => b_set_time b v end.
(** midi_pitch_bend.py:14-65, 64 *)
Definition b_run (b : bend) (ops : list b_op) : bend := fold_left (fun b o => snd (b_do b o)) ops b.

(** ** MidiInstrumentInfo *)
(** midi_instruments.py:15-32: a frozenset of (range, name) pairs, here with the bounds
    [lo, hi) of each range; the iteration order of the set is not specified, so lookups take the
    list in any order. *)
Definition instrument_families : list (Z * Z * string) :=
  [(1, 9, "Piano"%string); (9, 17, "Chromatic Percussion"%string); (17, 25, "Organ"%string); (25, 33, "Guitar"%string);
   (33, 41, "Bass"%string); (41, 49, "Strings"%string); (49, 57, "Ensemble"%string); (57, 65, "Brass"%string);
   (65, 73, "Reed"%string); (73, 81, "Pipe"%string); (81, 89, "Synth Lead"%string); (89, 97, "Synth Pad"%string);
   (97, 105, "Synth Effects"%string); (105, 113, "Ethnic"%string); (113, 121, "Percussive"%string);
   (121, 129, "Sound Effects"%string)].
(** midi_instruments.py:15-32 *)
Record instr : Type := mkI { i_num : Z; i_name : string; i_drum : bool }.
(** midi_instruments.py:63-69. *)
Fixpoint family_name (fams : list (Z * Z * string)) (n : Z) : string :=
  match fams with
  | [] => "Unknown"%string
  | (lo, hi, nm) :: r => if (lo <=? n) && (n <? hi) then nm else family_name r n
  end.
(** midi_instruments.py:44-72 __init__ (arguments of the declared types); [fams] is the
    frozenset in the order iterated. *)
Definition i_new (fams : list (Z * Z * string)) (num : Z) (name : string) (drum : bool) : res instr :=
  if negb ((0 <=? num) && (num <=? 255)) then Err ValueError
  else Ok (mkI (clamp255 num) (if String.eqb name ""%string then family_name fams num else name) drum).
(** midi_instruments.py:74-83 __eq__, 111-116 __hash__ ([h]: hash of the tuple). *)
Definition i_eqb (a b : instr) : bool :=
  (i_num a =? i_num b) && String.eqb (i_name a) (i_name b) && Bool.eqb (i_drum a) (i_drum b).
(** midi_instruments.py:74-83, 111-116 *)
Definition i_hash (h : Z * string * bool -> Z) (a : instr) : Z := h (i_num a, i_name a, i_drum a).
(** midi_instruments.py:126-132 to_dict (the three entries), 118-124 from_dict. *)
Record idict : Type := mkID { d_num : Z; d_name : option string; d_drum : option bool }.
(** midi_instruments.py:126-132, 118-124 *)
Definition i_to_dict (a : instr) : idict := mkID (i_num a) (Some (i_name a)) (Some (i_drum a)).
(** midi_instruments.py:126-132, 118-124 *)
Definition i_from_dict (fams : list (Z * Z * string)) (d : idict) : res instr :=
  i_new fams (d_num d) (match d_name d with Some s => s | None => ""%string end)
        (match d_drum d with Some b => b | None => false end).

(** ** MidiTempoSignature, MidiTimeSignature *)
(** midi_time_signature.py:23-60 (arguments given, of the declared types). *)
Record tempo : Type := mkT { t_time : Q; t_qpm : Q; t_resolution : Z; t_seq : Z }.
(** midi_time_signature.py:23-60 *)
Definition tempo_new (time qpm : Q) (resolution : Z) : res tempo :=
  if Qle_bool qpm 0 then Err AssertionError
  else if resolution <=? 0 then Err AssertionError
  else Ok (mkT time qpm resolution 0).
(** midi_time_signature.py:62-70 tempo_to_qpm. *)
Definition tempo_to_qpm (us : Q) : res Q :=
  if Qeq_bool us 0 then Err ZeroDivisionError else Ok (60 / (us / 1000000))%Q.
(** midi_time_signature.py:114-121 seconds_per_tick, 123-126 seconds_per_quarter. *)
Definition seconds_per_tick (t : tempo) : Q :=
  if Qeq_bool (t_qpm t) 0 then 0 else (1 / (t_qpm t * inject_Z (t_resolution t) / 60))%Q.
(** midi_time_signature.py:114-121, 123-126 *)
Definition seconds_per_quarter (t : tempo) : Q := (seconds_per_tick t * inject_Z (t_resolution t))%Q.
(** midi_time_signature.py:128-136 bpm and its setter (78-82: the qpm setter checks nothing). *)
Definition t_bpm (t : tempo) : Q := (t_qpm t / 4)%Q.
(** midi_time_signature.py:128-136, 78-82 *)
Definition t_set_bpm (t : tempo) (v : Q) : tempo := mkT (t_time t) (v * 4)%Q (t_resolution t) (t_seq t).
(** midi_time_signature.py:180-211 (math.log2 taken exact). *)
Record tsig : Type := mkS { s_time : Q; s_num : Z; s_den : Z; s_seq : Z }.
(** midi_time_signature.py:180-211 *)
Definition tsig_new (time : Q) (num den : Z) : res tsig :=
  if (den <=? 0) || (num <=? 0) then Err ValueError
  else if negb (2 ^ Z.log2 den =? den) then Err ValueError
  else Ok (mkS time num den 0).
(** midi_time_signature.py:213-218 measure_length, 220-257 beats_per_measure. *)
Definition measure_length (s : tsig) : Q := (s_time s * inject_Z (s_num s) / inject_Z (s_den s))%Q.
(** midi_time_signature.py:213-218, 220-257 *)
Definition beats_per_measure (s : tsig) : res Q :=
  if s_den s =? 1 then Ok (inject_Z (s_num s))
  else let p := Z.log2 (s_den s) in
       if negb (2 ^ p =? s_den s) then Err ValueError
       else Ok (inject_Z (s_num s) * Qpower 2 (p - 2))%Q.
(** midi_utils.py:98-107 bpm_to_qpm, 110-123 qpm_to_bpm, 18-41 steps_per_second_from_bpm,
    44-66 from_bpm_spq_to_sps, 69-83 from_spq_to_sps. *)
Definition bpm_to_qpm (bpm : Q) (beats : Z) : Q := ((bpm / 60) * inject_Z beats)%Q.
(** midi_utils.py:98-107, 110-123, 18-41, 44-66, 69-83 *)
Definition qpm_to_bpm (qpm : Q) (quarter : Z) : Q := (qpm * inject_Z quarter)%Q.
(** midi_utils.py:98-107, 110-123, 18-41, 44-66, 69-83 *)
Definition sps_from_bpm (bpm : Q) (resolution : Z) : Q := (bpm * inject_Z resolution / 60)%Q.
(** midi_utils.py:98-107, 110-123, 18-41, 44-66, 69-83 *)
Definition bpm_spq_to_sps (spq bpm : Q) (fourq : Z) : Q := (spq * (bpm / inject_Z fourq) / 60)%Q.
(** midi_utils.py:98-107, 110-123, 18-41, 44-66, 69-83 *)
Definition spq_to_sps (spq qpm : Q) : Q := (spq * qpm / 60)%Q.
