(** Model of the quantisation of notes in double precision: neural_graph_composer/midi/midi_note.py.
    Doubles as in M_Float.v.  Simplification: integers are below 2^53, so that turning them into doubles
    does not change them; the branch of lines 502-505 is not reached. *)
From Coq Require Import Qround.
From Verif Require Import PyBase M_Note M_Events M_Float.
Open Scope Z_scope.

(** midi_time * sps + (1 - amount): three rounded operations. [midi_note.py:364-367] *)
Definition place_f (t : Q) (sps : Z) (amount : Q) : Q := fl (fl (t * inject_Z sps) + fl (1 - amount)).
(** quantize_to_nearest_step, midi_note.py:338-368 *)
Definition quantize_step_f (t : Q) (sps : Z) (amount : Q) (is_floor : bool) : res Z :=
  if sps <=? 0 then Err ValueError
  else if Qle_bool amount 0 then Err ValueError
  else Ok (Z.max 0 (if is_floor then Qfloor (place_f t sps amount) else Qceiling (place_f t sps amount))).
(** numpy.around(x, 2): times 100, to the nearest whole number (ties to even), divided by 100; and
    numpy.divide(step, int(sps)). [midi_note.py:509-510] *)
Definition around2_f (x : Q) : Q := fl (inject_Z (round_half_even (fl (x * 100))) / 100).
(** midi_note.py:509-510 *)
Definition seconds_f (step : Q) (sps : Z) : Q := around2_f (fl (step / inject_Z sps)).
(** The literal 0.001. [midi_note.py:517-518] *)
Definition milli : Q := fl (1 # 1000).
(** midi_note.py:428-536 quantize_in_place.  A ValueError leaves what was assigned before. *)
Definition n_quantize_in_place_f (n : note) (sps : Z) (amount : Q) (min_step : option Z)
  : res unit * note :=
  match quantize_step_f (n_start n) sps amount true, quantize_step_f (n_end n) sps amount false with
  | Err e, _ => (Err e, n)
  | _, Err e => (Err e, n)
  | Ok s0, Ok e0 =>
    let e1 := if (sps =? 1) && (s0 =? e0) then e0 + 1 else e0 in       (* 458-462 *)
    let s2 := match min_step with                                       (* 464-466 *)
              | None => inject_Z s0 | Some m => Qmaxb (n_qs n) (inject_Z (s0 - m)) end in
    let e2 := match min_step with
              | None => inject_Z e1 | Some m => Qmaxb (n_qe n) (inject_Z (e1 - m)) end in
    run (if n_is_quantized n then                                       (* 469-475 *)
           run (n_set_qs n (Qmaxb 0 s2)) (fun n1 =>
           n_set_qe n1 (fl (n_qs n1 + fl (fl (e2 - s2) / inject_Z sps))))
         else                                                           (* 477-482 *)
           run (n_set_qs n (fl (s2 + inject_Z (Qfloor (fl (Qmaxb 0 (- n_start n) * inject_Z sps)))))) (fun n1 =>
           n_set_qe n1 (fl (e2 + inject_Z (Qfloor (fl (Qmaxb 0 (- n_end n) * inject_Z sps)))))))
    (fun n2 =>
    if Qltb (n_qs n2) 0 then (Err ValueError, n2)                       (* 491-496 *)
    else if Qltb (n_qe n2) 0 then (Err ValueError, n2)
    else if Qle_bool (n_qe n2) (n_qs n2) then (Err ValueError, n2)
    else
    (* 499-505: max with 0 keeps both, and they differ *)
    let new_end := Qmaxb 0 (Qminb (seconds_f e2 sps) (fl (999999 - milli))) in                (* 509, 518 *)
    let new_start := Qmaxb 0 (Qminb (seconds_f s2 sps) (fl (n_end n2 - milli))) in            (* 510, 517 *)
    let duration := fl (n_end n2 - n_start n2) in                       (* 520 *)
    if Qltb new_end (n_end n2) then                                     (* 521-525 *)
      run (n_set_start n2 new_start) (fun n3 => n_set_end n3 (fl (n_start n3 + duration)))
    else                                                                (* 527-529 *)
      run (n_set_end n2 new_end) (fun n3 => n_set_start n3 new_start))
  end.
(** midi_note.py:555-579 make_copy, 538-553 quantize *)
Definition n_quantize_f (n : note) (sps : Z) (amount : Q) (min_step : option Z) : res note :=
  bind (n_make_copy n) (fun c =>
  match n_quantize_in_place_f c sps amount min_step with
  | (Ok _, c') => Ok c' | (Err e, _) => Err e end).
