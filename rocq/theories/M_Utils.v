(** Model of neural_graph_composer/midi/midi_utils.py: tempo conversions, frame indices and the
    stand-alone quantisers.  Floats are exact rationals; the functions decorated with np.vectorize
    are modelled on one element. *)
From Coq Require Import QArith Qround.
From Verif Require Import PyBase M_Note M_Events.
Open Scope Z_scope.

(** midi_utils.py:18-41 *)
Definition steps_per_second_from_bpm (bpm resolution : Q) : Q := (bpm * resolution / 60)%Q.
(** midi_utils.py:44-66.  Simplification: a zero denominator (ZeroDivisionError, or inf for numpy
    scalars) is not modelled; theorems assume it is not 0. *)
Definition from_bpm_spq_to_sps (spq bpm four_quarter : Q) : Q :=
  let qpm := (bpm / four_quarter)%Q in (spq * qpm / 60)%Q.
(** midi_utils.py:69-83 *)
Definition from_spq_to_sps (spq qpm : Q) : Q := (spq * qpm / 60)%Q.
(** np.round(x, decimals=10): nearest multiple of 10^-10, ties to even. [midi_utils.py:86-123] *)
Definition round10 (x : Q) : Q := (inject_Z (round_half_even (x * 10000000000)) / 10000000000)%Q.
(** midi_utils.py:86-95 *)
Definition bpm_to_qpm_np (bpm beats : Q) : Q := round10 (bpm * beats / 60)%Q.
(** midi_utils.py:98-107 *)
Definition bpm_to_qpm (bpm beats : Q) : Q := (bpm / 60 * beats)%Q.
(** midi_utils.py:110-123 *)
Definition qpm_to_bpm (qpm quarter : Q) : Q := (qpm * quarter)%Q.

(** midi_utils.py:126-160.  [fps] 0 with a positive occupancy divides by zero; numpy scalars give
    inf there, whose conversion to int is undefined: not modelled (fps <> 0 is assumed then, and
    for fps = 0 the check before has already raised). *)
Definition frames_from_times (start_time end_time fps min_occ : Q) : res (Z * Z) :=
  if Qltb start_time 0 || Qltb end_time 0 then Err ValueError
  else
    let start_frame := Qfloor (start_time * fps) in
    let end_frame := Qceiling (end_time * fps) in
    if end_frame <=? start_frame then Err ValueError
    else if Qltb 0 min_occ then
      let start_occ := ((inject_Z start_frame + 1 - start_time * fps) / fps)%Q in
      let start_frame := start_frame + Qceiling (min_occ - start_occ) in
      let end_occ := ((end_time * fps - inject_Z end_frame) / fps)%Q in
      let end_frame := end_frame - Qceiling (min_occ - end_occ) in
      let end_frame := Z.max start_frame end_frame in
      Ok (start_frame, end_frame)
    else Ok (start_frame, end_frame).

(** An argument of [ft_quantize_to_nearest_step]: an int or float, or something else.
    [midi_utils.py:163-204] *)
Inductive arg : Type := Num (q : Q) | Other.
(** [x % 1] for x >= 0 [midi_utils.py:163-204] *)
Definition mod1 (x : Q) : Q := (x - inject_Z (Qfloor x))%Q.
(** midi_utils.py:163-204 *)
Definition ft_quantize (unquantized_time steps_per_second rounding_threshold : arg) : res Z :=
  match unquantized_time, steps_per_second, rounding_threshold with
  | Num t, Num sps, Num thr =>
      if Qle_bool sps 0 then Err ValueError
      else if Qltb thr 0 || Qle_bool 1 thr then Err ValueError
      else
        let steps := (t * sps)%Q in
        let threshold := (sps * thr)%Q in
        if Qltb steps 0 then
          let remainder := mod1 (Qabsb steps) in
          if Qle_bool threshold remainder then Ok (Qtrunc steps - 1) else Ok (Qtrunc steps)
        else
          let remainder := mod1 steps in
          if Qle_bool threshold remainder then Ok (Qtrunc steps + 1) else Ok (Qtrunc steps)
  | _, _, _ => Err TypeError
  end.

(** midi_utils.py:207-223; [beats] is time_signature[0]. *)
Definition quantize_to_nearest_step (t step_size tempo : Q) (beats : Z) : res Q :=
  let ticks_per_beat := 480 in
  if Qeq_bool step_size 0 then Err ZeroDivisionError
  else
    let per := (inject_Z (ticks_per_beat * beats) / step_size)%Q in
    let ticks_per_step := if Qeq_bool step_size 1 then Qfloor per else Qceiling per in
    let ticks_per_second := (inject_Z ticks_per_beat * tempo / 60)%Q in
    let ticks := (t * ticks_per_second)%Q in
    if ticks_per_step =? 0 then Err ZeroDivisionError
    else
      let quantized_ticks := round_half_even (ticks / inject_Z ticks_per_step) * ticks_per_step in
      if Qeq_bool ticks_per_second 0 then Err ZeroDivisionError
      else
        let quantized_time := (inject_Z quantized_ticks / ticks_per_second)%Q in
        if Qeq_bool step_size 1 then
          let qt := round_half_even (inject_Z quantized_ticks / inject_Z ticks_per_beat) * ticks_per_beat in
          if negb (qt mod ticks_per_beat =? 0) then Err AssertionError else Ok quantized_time
        else Ok quantized_time.

(** Decimal.to_integral_value(ROUND_HALF_UP): nearest, ties away from zero. [midi_utils.py:225-238] *)
Definition round_half_up (x : Q) : Z :=
  if Qle_bool 0 x then Qfloor (x + (1 # 2))%Q else Qceiling (x - (1 # 2))%Q.
(** midi_utils.py:225-238.  Decimal(str(x)) is x exactly in the model (the 28 digit decimal
    context is not modelled). *)
Definition quantize_to_nearest_step_alt (t sps thr : Q) : Z := round_half_up (t * sps - thr)%Q.

(** np.argmin of a non-empty row: the first index of a smallest entry ([lt] is < on distances).
    [midi_utils.py:257] *)
Fixpoint argmin {D} (lt : D -> D -> bool) (best : D) (bi i : nat) (l : list D) : nat :=
  match l with
  | [] => bi
  | d :: r => if lt d best then argmin lt d i (S i) r else argmin lt best bi (S i) r
  end.
(** midi_utils.py:241-260; [metric] is the metric argument, distances are of an ordered type. *)
Fixpoint vector_quantize {A D} (lt : D -> D -> bool) (metric : A -> A -> D) (grid notes : list A) : res (list A) :=
  match notes with
  | [] => Ok []
  | n :: r =>
      match map (metric n) grid with
      | [] => Err ValueError
      | d :: ds =>
          match nth_error grid (argmin lt d 0 1 ds) with
          | None => Err IndexError
          | Some g => bind (vector_quantize lt metric grid r) (fun q => Ok (g :: q))
          end
      end
  end.

(** midi_utils.py:263-268: the key functions read the loop variable [note] of line 273, which has
    no value yet; [min] of an empty list raises ValueError before it calls one. *)
Definition quantize_and_snap_to_grid {A} (notes : list A) (grid_size : Q) : res (list (list A)) :=
  match notes with [] => Err ValueError | _ => Err NameError end.

(** midi_utils.py:299-327 *)
Definition quantize_note_to_step_grid (note_start note_end step_size grid_size : Q) : res (Q * Q) :=
  if Qltb note_start 0 || Qltb note_end 0 then Err ValueError
  else if Qeq_bool step_size 0 then Err ZeroDivisionError
  else
    let steps_per_grid := Qtrunc (grid_size / step_size) in
    let start_step := round_half_even (note_start / step_size) in
    let end_step := round_half_even (note_end / step_size) in
    if steps_per_grid =? 0 then Err ZeroDivisionError
    else
      let start_grid := start_step / steps_per_grid in
      let end_grid := end_step / steps_per_grid in
      Ok ((inject_Z start_grid * grid_size + inject_Z (start_step mod steps_per_grid) * step_size)%Q,
          (inject_Z end_grid * grid_size + inject_Z (end_step mod steps_per_grid) * step_size)%Q).

(** midi_utils.py:330-367; time_signature only feeds values that are not used. *)
Definition interpolates_quantize (note_start note_end step_size grid_size tempo : Q) : res (Q * Q) :=
  let ticks_per_beat := 480%Q in
  let ticks_per_second := (ticks_per_beat * tempo / 60)%Q in
  if Qeq_bool step_size 0 then Err ZeroDivisionError
  else
    let steps_per_grid := Qtrunc (grid_size / step_size * ticks_per_second) in
    let start_step := round_half_even (note_start * ticks_per_second / step_size) in
    let end_step := round_half_even (note_end * ticks_per_second / step_size) in
    if Qeq_bool ticks_per_second 0 then Err ZeroDivisionError
    else if steps_per_grid =? 0 then Err ZeroDivisionError
    else
      let start_grid := start_step / steps_per_grid in
      let end_grid := end_step / steps_per_grid in
      Ok ((inject_Z start_grid * grid_size + inject_Z (start_step mod steps_per_grid) * step_size)%Q,
          (inject_Z end_grid * grid_size + inject_Z (end_step mod steps_per_grid) * step_size)%Q).
