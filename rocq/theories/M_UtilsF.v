(** Model of the stand-alone quantisers in double precision: neural_graph_composer/midi/midi_utils.py.
    Doubles as in M_Float.v.  Simplification: integers are below 2^53, so that turning them into doubles
    does not change them; rates are not zero where numpy would divide by zero without raising. *)
From Coq Require Import Qround.
From Verif Require Import PyBase M_Note M_Events M_Float M_Utils.
Open Scope Z_scope.

(** frames_from_times: each numpy operation on float64 scalars is rounded; floor, ceil and the conversion
    to int are exact. [midi_utils.py:126-160] *)
Definition frames_from_times_f (start_time end_time fps min_occ : Q) : res (Z * Z) :=
  if Qltb start_time 0 || Qltb end_time 0 then Err ValueError
  else
    let start_frame := Qfloor (fl (start_time * fps)) in
    let end_frame := Qceiling (fl (end_time * fps)) in
    if end_frame <=? start_frame then Err ValueError
    else if Qltb 0 min_occ then
      let start_occ := fl (fl (inject_Z (start_frame + 1) - fl (start_time * fps)) / fps) in
      let start_frame := start_frame + Qceiling (fl (min_occ - start_occ)) in
      let end_occ := fl (fl (fl (end_time * fps) - inject_Z end_frame) / fps) in
      let end_frame := end_frame - Qceiling (fl (min_occ - end_occ)) in
      let end_frame := Z.max start_frame end_frame in
      Ok (start_frame, end_frame)
    else Ok (start_frame, end_frame).

(** ft_quantize_to_nearest_step of three numbers: two rounded products; abs, [% 1] and int are exact.
    [midi_utils.py:163-204] *)
Definition ft_quantize_f (t sps thr : Q) : res Z :=
  if Qle_bool sps 0 then Err ValueError
  else if Qltb thr 0 || Qle_bool 1 thr then Err ValueError
  else
    let steps := fl (t * sps) in
    let threshold := fl (sps * thr) in
    if Qltb steps 0 then
      let remainder := mod1 (Qabsb steps) in
      if Qle_bool threshold remainder then Ok (Qtrunc steps - 1) else Ok (Qtrunc steps)
    else
      let remainder := mod1 steps in
      if Qle_bool threshold remainder then Ok (Qtrunc steps + 1) else Ok (Qtrunc steps).

(** quantize_to_nearest_step; [beats] is time_signature[0]. [midi_utils.py:207-223] *)
Definition quantize_to_nearest_step_f (t step_size tempo : Q) (beats : Z) : res Q :=
  let ticks_per_beat := 480 in
  if Qeq_bool step_size 0 then Err ZeroDivisionError
  else
    let per := fl (inject_Z (ticks_per_beat * beats) / step_size) in
    let ticks_per_step := if Qeq_bool step_size 1 then Qfloor per else Qceiling per in
    let ticks_per_second := fl (fl (inject_Z ticks_per_beat * tempo) / 60) in
    let ticks := fl (t * ticks_per_second) in
    if ticks_per_step =? 0 then Err ZeroDivisionError
    else
      let quantized_ticks := round_half_even (fl (ticks / inject_Z ticks_per_step)) * ticks_per_step in
      if Qeq_bool ticks_per_second 0 then Err ZeroDivisionError
      else
        let quantized_time := fl (inject_Z quantized_ticks / ticks_per_second) in
        if Qeq_bool step_size 1 then
          let qt := round_half_even (fl (inject_Z quantized_ticks / inject_Z ticks_per_beat)) * ticks_per_beat in
          if negb (qt mod ticks_per_beat =? 0) then Err AssertionError else Ok quantized_time
        else Ok quantized_time.

(** quantize_note_to_step_grid [midi_utils.py:299-327] *)
Definition quantize_note_to_step_grid_f (note_start note_end step_size grid_size : Q) : res (Q * Q) :=
  if Qltb note_start 0 || Qltb note_end 0 then Err ValueError
  else if Qeq_bool step_size 0 then Err ZeroDivisionError
  else
    let steps_per_grid := Qtrunc (fl (grid_size / step_size)) in
    let start_step := round_half_even (fl (note_start / step_size)) in
    let end_step := round_half_even (fl (note_end / step_size)) in
    if steps_per_grid =? 0 then Err ZeroDivisionError
    else
      let start_grid := start_step / steps_per_grid in
      let end_grid := end_step / steps_per_grid in
      Ok (fl (fl (inject_Z start_grid * grid_size) + fl (inject_Z (start_step mod steps_per_grid) * step_size)),
          fl (fl (inject_Z end_grid * grid_size) + fl (inject_Z (end_step mod steps_per_grid) * step_size))).

(** check_quantization: two asserts, start first. [midi_utils.py:400-403] *)
Definition check_quantization_f (note_start note_end step_size grid_size expected_start expected_end : Q) : res unit :=
  match quantize_note_to_step_grid_f note_start note_end step_size grid_size with
  | Err x => Err x
  | Ok (s, e) => if Qeq_bool s expected_start then if Qeq_bool e expected_end then Ok tt else Err AssertionError else Err AssertionError
  end.
(** check_grid_quantization: its five calls one after the other; decimals become the nearest doubles.
    [midi_utils.py:406-423] *)
Definition check_grid_quantization_f : res unit :=
  bind (check_quantization_f (fl (12 # 10)) (fl (28 # 10)) 1 4 1 3) (fun _ =>
  bind (check_quantization_f (fl (16 # 10)) (fl (37 # 10)) (1 # 2) 2 (3 # 2) (7 # 2)) (fun _ =>
  bind (check_quantization_f 2 6 1 4 2 6) (fun _ =>
  bind (check_quantization_f (5 # 4) (11 # 4) (1 # 2) 2 1 3) (fun _ =>
  check_quantization_f (fl (18 # 10)) (fl (72 # 10)) 2 8 2 8)))).
