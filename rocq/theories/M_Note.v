(** Model of neural_graph_composer/midi/midi_note.py (MidiNote).  Times and quantised steps
    are rationals (exact arithmetic instead of binary64; NaN and infinities are not modelled).
    pitch_name (librosa) and the write-only flag _is_quantized are not modelled. *)
From Coq Require Import Qround.
From Verif Require Import PyBase.
Open Scope Z_scope.

(** midi_note.py:130-173 attributes. *)
Record note : Type := mkN {
  n_pitch : Z; n_velocity : Z; n_program : Z; n_instrument : Z; n_voice : Z;
  n_num : Z; n_den : Z; n_drum : bool;
  n_start : Q; n_end : Q; n_qs : Q; n_qe : Q }.

(** midi_note.py:130-173 *)
Definition with_start (n : note) (v : Q) : note :=
  mkN (n_pitch n) (n_velocity n) (n_program n) (n_instrument n) (n_voice n) (n_num n) (n_den n) (n_drum n)
      v (n_end n) (n_qs n) (n_qe n).
(** midi_note.py:130-173 *)
Definition with_end (n : note) (v : Q) : note :=
  mkN (n_pitch n) (n_velocity n) (n_program n) (n_instrument n) (n_voice n) (n_num n) (n_den n) (n_drum n)
      (n_start n) v (n_qs n) (n_qe n).
(** midi_note.py:130-173 *)
Definition with_qs (n : note) (v : Q) : note :=
  mkN (n_pitch n) (n_velocity n) (n_program n) (n_instrument n) (n_voice n) (n_num n) (n_den n) (n_drum n)
      (n_start n) (n_end n) v (n_qe n).
(** midi_note.py:130-173 *)
Definition with_qe (n : note) (v : Q) : note :=
  mkN (n_pitch n) (n_velocity n) (n_program n) (n_instrument n) (n_voice n) (n_num n) (n_den n) (n_drum n)
      (n_start n) (n_end n) (n_qs n) v.
(** midi_note.py:130-173 *)
Definition with_pitch (n : note) (v : Z) : note :=
  mkN v (n_velocity n) (n_program n) (n_instrument n) (n_voice n) (n_num n) (n_den n) (n_drum n)
      (n_start n) (n_end n) (n_qs n) (n_qe n).
(** midi_note.py:130-173 *)
Definition with_program (n : note) (v : Z) : note :=
  mkN (n_pitch n) (n_velocity n) v (n_instrument n) (n_voice n) (n_num n) (n_den n) (n_drum n)
      (n_start n) (n_end n) (n_qs n) (n_qe n).

(** midi_note.py:106-110, 113-117: warn and clamp; midi_spec.py: both maxima are 127. *)
Definition clamp_warn (hi v : Z) : Z :=
  if (0 <=? v) && (v <=? hi) then v else Z.max 0 (Z.min hi v).

(** midi_note.py:76-173 __init__; the asserts 119, 122 and 126-128 in order. *)
Definition n_new (a : note) : res note :=
  if Qle_bool (n_end a) (n_start a) then Err AssertionError
  else if n_num a <=? 0 then Err AssertionError
  else if negb ((0 <? n_den a) && (Z.land (n_den a) (n_den a - 1) =? 0)) then Err AssertionError
  else Ok (mkN (clamp_warn 127 (n_pitch a)) (clamp_warn 127 (n_velocity a))
               (Z.min (Z.max 0 (n_program a)) 255) (Z.min (Z.max (n_instrument a) 0) 127)
               (n_voice a) (Z.max (Z.min (n_num a) 255) 1) (Z.max (Z.min (n_den a) 255) 1)
               (n_drum a) (n_start a) (n_end a) (n_qs a) (n_qe a)).

(** midi_note.py:190-204 __eq__ (the other object is a MidiNote). *)
Definition n_close (a b : Q) : bool := qclose (1 # 1000000000) (1 # 1000000000) a b.
(** midi_note.py:190-204 *)
Definition n_eqb (a b : note) : bool :=
  (n_pitch a =? n_pitch b) && (n_velocity a =? n_velocity b) && (n_program a =? n_program b) &&
  (n_instrument a =? n_instrument b) && n_close (n_start a) (n_start b) && n_close (n_end a) (n_end b) &&
  Qeq_bool (n_qs a) (n_qs b) && Qeq_bool (n_qe a) (n_qe b) && (n_voice a =? n_voice b) &&
  (n_num a =? n_num b) && (n_den a =? n_den b) && Bool.eqb (n_drum a) (n_drum b).

(** midi_note.py:206-216 __lt__, 218-234 __le__. *)
Definition tol : Q := 1 # 1000000.
(** midi_note.py:206-216, 218-234 *)
Definition n_ltb (a b : note) : bool :=
  if Qltb tol (Qabsb (n_start a - n_start b)) then Qltb (n_start a) (n_start b)
  else if Qltb tol (Qabsb (n_end a - n_end b)) then Qltb (n_end a) (n_end b)
  else n_pitch a <? n_pitch b.
(** midi_note.py:206-216, 218-234 *)
Definition n_leb (a b : note) : bool :=
  if Qltb (n_start a) (n_start b) then true
  else if Qle_bool (Qabsb (n_start a - n_start b)) tol then Qle_bool (n_end a) (n_end b + tol)
  else false.

(** midi_note.py:250-261 start_time setter, 270-281 end_time setter. *)
Definition n_set_start (n : note) (v : Q) : res unit * note :=
  if Qltb v 0 then (Err ValueError, n)
  else if Qle_bool (n_end n) v then (Err ValueError, n)
  else (Ok tt, with_start n v).
(** midi_note.py:250-261, 270-281 *)
Definition n_set_end (n : note) (v : Q) : res unit * note :=
  if Qltb v 0 then (Err ValueError, n)
  else if Qle_bool v (n_start n) then (Err ValueError, n)
  else (Ok tt, with_end n v).
(** midi_note.py:603-612, 614-623: the effective quantised-step setters (they replace 291-306
    and 316-330). *)
Definition n_set_qs (n : note) (v : Q) : res unit * note :=
  if Qltb v 0 then (Err ValueError, n) else (Ok tt, with_qs n v).
(** midi_note.py:603-612, 614-623, 316-330 *)
Definition n_set_qe (n : note) (v : Q) : res unit * note :=
  if Qltb v 0 then (Err ValueError, n) else (Ok tt, with_qe n v).
(** midi_note.py:585-588, 594-601. *)
Definition n_set_pitch (n : note) (v : Z) : res unit * note :=
  if (0 <=? v) && (v <=? 127) then (Ok tt, with_pitch n v) else (Err AssertionError, n).
(** midi_note.py:585-588, 594-601 *)
Definition n_set_program (n : note) (v : Z) : res unit * note :=
  if (0 <=? v) && (v <=? 255) then (Ok tt, with_program n v) else (Err AssertionError, n).

(** midi_note.py:332-336. *)
Definition n_is_quantized (n : note) : bool := Qle_bool 0 (n_qs n) && Qle_bool 0 (n_qe n).

(** midi_note.py:338-368 quantize_to_nearest_step (sps an integer). *)
Definition quantize_step (t : Q) (sps : Z) (amount : Q) (is_floor : bool) : res Z :=
  if sps <=? 0 then Err ValueError
  else if Qle_bool amount 0 then Err ValueError
  else
    let x := (t * inject_Z sps + (1 - amount))%Q in
    Ok (Z.max 0 (if is_floor then Qfloor x else Qceiling x)).

(** midi_note.py:388-392 duration, 394-401 overlaps. *)
Definition n_duration (n : note) : Q := (n_end n - n_start n)%Q.
(** midi_note.py:388-392, 394-401 *)
Definition n_overlaps (a b : note) : bool :=
  (Qle_bool (n_start a) (n_start b) && Qltb (n_start b) (n_end a)) ||
  (Qltb (n_start a) (n_end b) && Qle_bool (n_end b) (n_end a)) ||
  (Qle_bool (n_start b) (n_start a) && Qle_bool (n_end a) (n_end b)).

(** numpy.around(x, 2): nearest multiple of 1/100, ties to even. [midi_note.py:509-510] *)
Definition round_half_even (x : Q) : Z :=
  let f := Qfloor x in
  let d := (x - inject_Z f)%Q in
  if Qltb d (1 # 2) then f else if Qltb (1 # 2) d then f + 1
  else if Z.even f then f else f + 1.
(** midi_note.py:509-510 *)
Definition around2 (x : Q) : Q := (inject_Z (round_half_even (x * 100)) / 100)%Q.

(** midi_note.py:428-536 quantize_in_place.  A ValueError leaves what was assigned before. *)
Definition run {A} (r : res unit * A) (k : A -> res unit * A) : res unit * A :=
  match r with (Ok _, a) => k a | (Err e, a) => (Err e, a) end.
(** midi_note.py:428-536 *)
Definition n_quantize_in_place (n : note) (sps : Z) (amount : Q) (min_step : option Z)
  : res unit * note :=
  match quantize_step (n_start n) sps amount true, quantize_step (n_end n) sps amount false with
  | Err e, _ => (Err e, n)
  | _, Err e => (Err e, n)
  | Ok s0, Ok e0 =>
    let e1 := if (sps =? 1) && (s0 =? e0) then e0 + 1 else e0 in       (* 458-462 *)
    let s2 := match min_step with                                       (* 464-466 *)
              | None => inject_Z s0 | Some m => Qmaxb (n_qs n) (inject_Z (s0 - m)) end in
    let e2 := match min_step with
              | None => inject_Z e1 | Some m => Qmaxb (n_qe n) (inject_Z (e1 - m)) end in
    run (if n_is_quantized n then                                       (* 469-475 *)
           run (n_set_qs n (Qmaxb 0 s2)) (fun n1 =>
           n_set_qe n1 (n_qs n1 + (e2 - s2) / inject_Z sps)%Q)
         else                                                           (* 477-482 *)
           run (n_set_qs n (s2 + inject_Z (Qfloor (Qmaxb 0 (- n_start n) * inject_Z sps)))%Q) (fun n1 =>
           n_set_qe n1 (e2 + inject_Z (Qfloor (Qmaxb 0 (- n_end n) * inject_Z sps)))%Q))
    (fun n2 =>
    if Qltb (n_qs n2) 0 then (Err ValueError, n2)                       (* 491-496 *)
    else if Qltb (n_qe n2) 0 then (Err ValueError, n2)
    else if Qle_bool (n_qe n2) (n_qs n2) then (Err ValueError, n2)
    else
    (* 499-505: max with 0 keeps both, and they differ *)
    let new_end := Qmaxb 0 (Qminb (around2 (e2 / inject_Z sps)) (999999 - (1 # 1000))) in  (* 509, 518 *)
    let new_start := Qmaxb 0 (Qminb (around2 (s2 / inject_Z sps)) (n_end n2 - (1 # 1000))) in
    let duration := (n_end n2 - n_start n2)%Q in                        (* 520 *)
    if Qltb new_end (n_end n2) then                                     (* 521-525 *)
      run (n_set_start n2 new_start) (fun n3 => n_set_end n3 (n_start n3 + duration)%Q)
    else                                                                (* 527-529 *)
      run (n_set_end n2 new_end) (fun n3 => n_set_start n3 new_start))
  end.

(** midi_note.py:555-579 make_copy, 538-553 quantize. *)
Definition n_make_copy (n : note) : res note := n_new n.
(** midi_note.py:555-579, 538-553 *)
Definition n_quantize (n : note) (sps : Z) (amount : Q) (min_step : option Z) : res note :=
  bind (n_make_copy n) (fun c =>
  match n_quantize_in_place c sps amount min_step with
  | (Ok _, c') => Ok c' | (Err e, _) => Err e end).

(** midi_note.py:820-826 shift_time, 828-834 stretch. *)
Definition n_shift (n : note) (d : Q) : note := with_end (with_start n (n_start n + d)%Q) (n_end n + d)%Q.
(** midi_note.py:820-826, 828-834 *)
Definition n_stretch (n : note) (k : Q) : note := with_end (with_start n (n_start n * k)%Q) (n_end n * k)%Q.

(** midi_note.py:403-411, 413-426. *)
Definition n_step_duration (n : note) : res Q :=
  if negb (n_is_quantized n) then Err ValueError else Ok (n_qe n - n_qs n + 1)%Q.
(** midi_note.py:403-411, 413-426 *)
Definition n_step_seconds (n : note) (sps : Z) : res Q :=
  if negb (n_is_quantized n) then Err ValueError
  else if sps <=? 0 then Err ValueError else Ok ((n_qe n - n_qs n) / inject_Z sps)%Q.

(** The mutating calls on one note. [midi_note.py:251-620, 820-840] *)
Inductive n_op : Type :=
| NSetStart (v : Q) | NSetEnd (v : Q) | NSetQs (v : Q) | NSetQe (v : Q)
| NSetPitch (v : Z) | NSetProgram (v : Z)
| NQuantize (sps : Z) (amount : Q) (min_step : option Z)
| NShift (d : Q) | NStretch (k : Q).
(** midi_note.py:251-620 *)
Definition n_step (n : note) (o : n_op) : res unit * note :=
  match o with
  | NSetStart v => n_set_start n v
  | NSetEnd v => n_set_end n v
  | NSetQs v => n_set_qs n v
  | NSetQe v => n_set_qe n v
  | NSetPitch v => n_set_pitch n v
  | NSetProgram v => n_set_program n v
  | NQuantize sps a m => n_quantize_in_place n sps a m
  | NShift d => (Ok tt, n_shift n d)
  | NStretch k => (Ok tt, n_stretch n k)
  end.
(** midi_note.py:251-620 *)
Definition n_run (n : note) (ops : list n_op) : note := fold_left (fun n o => snd (n_step n o)) ops n.
