(** Model of the tempo and tick arithmetic of neural_graph_composer/custom_pretty_midi.py in double
    precision.  A double is the rational it stands for; every operation rounds to the nearest number with
    53 significant bits, ties to even.  Simplification: the exponent is not bounded (no overflow, no
    subnormal number), so NaN and infinities do not occur. *)
From Coq Require Import Qround Qpower.
From Verif Require Import PyBase M_Note M_Ticks.
Open Scope Z_scope.

(** ** Doubles *)
(** The exponent e of the last of 53 bits of x > 0: 2^52 <= x / 2^e < 2^53. [custom_pretty_midi.py:153-172] *)
Definition last_place (x : Q) : Z :=
  let e := Z.log2 (Qnum x) - Z.log2 (Zpos (Qden x)) - 52 in
  if Qltb (x * 2 ^ (- e)) (inject_Z (2 ^ 52)) then e - 1 else e.
(** Rounding of x > 0, in lowest terms. [custom_pretty_midi.py:153-172] *)
Definition fl_pos (x : Q) : Q :=
  let e := last_place x in Qred (inject_Z (round_half_even (x * 2 ^ (- e))) * 2 ^ e)%Q.
(** The double an operation with the exact result x returns. [custom_pretty_midi.py:153-172] *)
Definition fl (x : Q) : Q :=
  if Qltb 0 x then fl_pos x else if Qltb x 0 then Qred (- fl_pos (- x)) else 0%Q.

(** ** Tempo *)
(** custom_pretty_midi.py:166-167, 171: 60.0 / ((6e7 / tempo) * resolution). *)
Definition scale_f (tempo resolution : Z) : res Q :=
  if tempo =? 0 then Err ZeroDivisionError
  else let d := fl (fl (60000000 / inject_Z tempo) * inject_Z resolution) in
       if Qeq_bool d 0 then Err ZeroDivisionError else Ok (fl (60 / d)).
(** custom_pretty_midi.py:153, 59-60: 60.0 / (bpm * resolution). *)
Definition scale_bpm_f (bpm : Q) (resolution : Z) : res Q :=
  let d := fl (bpm * inject_Z resolution) in
  if Qeq_bool d 0 then Err ZeroDivisionError else Ok (fl (60 / d)).
(** custom_pretty_midi.py:158-174: the loop of _load_tempo_changes. *)
Fixpoint tempo_loop_f (resolution : Z) (evs : list (Z * Z)) (scales : list (Z * Q)) : res (list (Z * Q)) :=
  match evs with
  | [] => Ok scales
  | (tick, tempo) :: r =>
    bind (scale_f tempo resolution) (fun s =>
      if tick =? 0 then tempo_loop_f resolution r [(0, s)]
      else match rev scales with
           | [] => Err IndexError
           | (_, l) :: _ =>
             if Qeq_bool s l then tempo_loop_f resolution r scales
             else tempo_loop_f resolution r (scales ++ [(tick, s)])
           end)
  end.
(** custom_pretty_midi.py:142-174 _load_tempo_changes *)
Definition load_tempo_f (resolution : Z) (evs : list (Z * Z)) : res (list (Z * Q)) :=
  bind (scale_bpm_f 120 resolution) (fun s => tempo_loop_f resolution evs [(0, s)]).
(** custom_pretty_midi.py:1349: int(6e7 / (60. / (tick_scale * resolution))). *)
Definition saved_tempo (resolution : Z) (scale : Q) : Z :=
  Qfloor (fl (60000000 / fl (60 / fl (scale * inject_Z resolution)))).
(** custom_pretty_midi.py:1346-1349: the tempo events written. *)
Definition write_tempo_f (resolution : Z) (scales : list (Z * Q)) : list (Z * Z) :=
  map (fun ts => (fst ts, saved_tempo resolution (snd ts))) scales.
(** Saving and loading the tempo once: custom_pretty_midi.py:142-174 after 1346-1349. *)
Definition resave (resolution : Z) (evs : list (Z * Z)) : res (list (Z * Z)) :=
  bind (load_tempo_f resolution evs) (fun m => Ok (write_tempo_f resolution m)).
(** Saving and loading n times. [custom_pretty_midi.py:142-174, 1346-1349] *)
Fixpoint resave_n (n : nat) (resolution : Z) (evs : list (Z * Z)) : res (list (Z * Z)) :=
  match n with O => Ok evs | S k => bind (resave resolution evs) (resave_n k resolution) end.

(** ** Ticks *)
(** custom_pretty_midi.py:257-258, 263-264: last_end_time + tick_scale * ticks. *)
Definition segment_f (last_end sc : Q) (n : Z) : list Q := map (fun k => fl (last_end + fl (sc * k))%Q) (arange n).
(** custom_pretty_midi.py:254-260 *)
Fixpoint upd_loop_f (a : list Q) (last_end : Q) (l : list (Z * Q)) : res (list Q * Q) :=
  match l with
  | (s, sc) :: (((e, _) :: _) as r) =>
    bind (slice_set a s (e + 1) (segment_f last_end sc (e - s + 1))) (fun a' =>
    bind (py_nth a' e) (fun t => upd_loop_f a' t r))
  | _ => Ok (a, last_end)
  end.
(** custom_pretty_midi.py:236-264 _update_tick_to_time: the new table. *)
Definition update_table_f (scales : list (Z * Q)) (max_tick : Z) : res (list Q) :=
  match rev scales with
  | [] => Err ValueError
  | (s, sc) :: _ =>
    let ms := fold_right Z.max (fst (hd (0, 0%Q) scales)) (map fst scales) in
    let mt := if ms <? max_tick then max_tick else ms in
    let zeros := repeat 0%Q (Z.to_nat (mt + 1)) in
    bind (upd_loop_f zeros 0 scales) (fun r => let (a, last_end) := r in
      slice_set a s (Z.of_nat (List.length a)) (segment_f last_end sc (mt + 1 - s)))
  end.
(** custom_pretty_midi.py:97-111: the tempo part of from_file. *)
Definition pm_load_f (resolution : Z) (evs : list (Z * Z)) (last : Z) : res pm :=
  bind (load_tempo_f resolution evs) (fun sc =>
    if MAX_TICK <? last + 1 then Err ValueError
    else bind (update_table_f sc (last + 1)) (fun a => Ok (mkPM resolution sc a))).
(** custom_pretty_midi.py:999-1021 tick_to_time *)
Definition tick_to_time_f (p : pm) (tick : Z) : res Q * pm :=
  if MAX_TICK <=? tick then (Err IndexError, p)
  else
    let upd := if Z.of_nat (List.length (p_times p)) <=? tick
               then bind (update_table_f (p_scales p) tick) (fun a => Ok (mkPM (p_res p) (p_scales p) a))
               else Ok p in
    match upd with
    | Err e => (Err e, p)
    | Ok p' => (py_nth (p_times p') tick, p')
    end.
(** custom_pretty_midi.py:1023-1052 time_to_tick *)
Definition time_to_tick_f (p : pm) (t : Q) : res Z :=
  let a := p_times p in
  let i := bisect_left Qltb a t in
  if Nat.eqb i (List.length a) then
    let j := Z.of_nat i - 1 in
    bind (py_nth a j) (fun tl =>
      match rev (p_scales p) with
      | [] => Err IndexError
      | (_, sc) :: _ => if Qeq_bool sc 0 then Err ZeroDivisionError
                        else Ok (round_half_even (fl (inject_Z j + fl (fl (t - tl) / sc))))
      end)
  else if Nat.eqb i 0 then Ok 0
  else bind (py_nth a (Z.of_nat i - 1)) (fun t0 => bind (py_nth a (Z.of_nat i)) (fun t1 =>
         if Qltb (Qabsb (fl (t - t0))) (Qabsb (fl (t - t1))) then Ok (Z.of_nat i - 1) else Ok (Z.of_nat i))).
(** Any calls of tick_to_time in between. [custom_pretty_midi.py:999-1021] *)
Definition pm_run_f (p : pm) (ticks : list Z) : pm := fold_left (fun p k => snd (tick_to_time_f p k)) ticks p.
