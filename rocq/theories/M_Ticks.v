(** Model of the tick/time part of neural_graph_composer/custom_pretty_midi.py.
    Ticks are integers, times and scales exact rationals instead of floats (simplification).
    np.searchsorted is modelled as the usual binary search.  Negative ticks do not occur in MIDI
    files; slices are only modelled for non-negative bounds. *)
From Verif Require Import PyBase M_Note.
Open Scope Z_scope.

(** [custom_pretty_midi.py:27] *)
Definition MAX_TICK : Z := 1000000000.   (* custom_pretty_midi.py:27 *)

(** The fields resolution, _tick_scales and __tick_to_time of a CustomPrettyMIDI.
    [custom_pretty_midi.py:54-61] *)
Record pm : Type := mkPM { p_res : Z; p_scales : list (Z * Q); p_times : list Q }.

(** 60.0 / (bpm * resolution), ZeroDivisionError if that is zero. [custom_pretty_midi.py:142-199] *)
Definition scale_of_bpm (bpm : Q) (resolution : Z) : res Q :=
  let d := (bpm * inject_Z resolution)%Q in
  if Qeq_bool d 0 then Err ZeroDivisionError else Ok (60 / d)%Q.
(** 60.0 / ((6e7 / event.tempo) * resolution), as in custom_pretty_midi.py:166-167, 171. *)
Definition scale_of_tempo (tempo : Z) (resolution : Z) : res Q :=
  if tempo =? 0 then Err ZeroDivisionError
  else scale_of_bpm (60000000 / inject_Z tempo)%Q resolution.

(** custom_pretty_midi.py:54-61: an object made from scratch. *)
Definition pm_new (resolution : Z) (tempo : Q) : res pm :=
  bind (scale_of_bpm tempo resolution) (fun s => Ok (mkPM resolution [(0, s)] [0%Q])).

(** custom_pretty_midi.py:142-174 _load_tempo_changes: [evs] are the (absolute tick, tempo) of
    the set_tempo events of track 0. *)
Fixpoint load_tempo_loop (resolution : Z) (evs : list (Z * Z)) (scales : list (Z * Q)) : res (list (Z * Q)) :=
  match evs with
  | [] => Ok scales
  | (tick, tempo) :: r =>
    bind (scale_of_tempo tempo resolution) (fun s =>
      if tick =? 0 then load_tempo_loop resolution r [(0, s)]
      else match rev scales with
           | [] => Err IndexError
           | (_, l) :: _ =>
             if Qeq_bool s l then load_tempo_loop resolution r scales
             else load_tempo_loop resolution r (scales ++ [(tick, s)])
           end)
  end.
(** custom_pretty_midi.py:142-174 *)
Definition load_tempo (resolution : Z) (evs : list (Z * Z)) : res (list (Z * Q)) :=
  bind (scale_of_bpm 120 resolution) (fun s => load_tempo_loop resolution evs [(0, s)]).

(** np.arange(n) as floats. [custom_pretty_midi.py:257, 264] *)
Definition arange (n : Z) : list Q := map (fun k => inject_Z (Z.of_nat k)) (seq 0 (Z.to_nat n)).
(** a[s:e] = v on a numpy vector, 0 <= s, e: the sizes must agree unless v has one element.
    [custom_pretty_midi.py:258-264] *)
Definition slice_set (a : list Q) (s e : Z) (v : list Q) : res (list Q) :=
  let i := Nat.min (Z.to_nat s) (List.length a) in
  let j := Nat.min (Z.to_nat e) (List.length a) in
  let n := (j - i)%nat in
  if Nat.eqb (List.length v) n then Ok (firstn i a ++ v ++ skipn (i + n) a)
  else match v with
       | [x] => Ok (firstn i a ++ repeat x n ++ skipn (i + n) a)
       | _ => Err ValueError
       end.
(** Python a[k]. [custom_pretty_midi.py:999-1052] *)
Definition py_nth {A} (a : list A) (k : Z) : res A :=
  let k' := if k <? 0 then k + Z.of_nat (List.length a) else k in
  if k' <? 0 then Err IndexError
  else match nth_error a (Z.to_nat k') with Some x => Ok x | None => Err IndexError end.

(** custom_pretty_midi.py:254-260: the loop over the closed tempo intervals. *)
Fixpoint upd_loop (a : list Q) (last_end : Q) (l : list (Z * Q)) : res (list Q * Q) :=
  match l with
  | (s, sc) :: (((e, _) :: _) as r) =>
    bind (slice_set a s (e + 1) (map (fun k => last_end + sc * k)%Q (arange (e - s + 1)))) (fun a' =>
    bind (py_nth a' e) (fun t => upd_loop a' t r))
  | _ => Ok (a, last_end)
  end.
(** custom_pretty_midi.py:236-265 _update_tick_to_time: the new table. *)
Definition update_table (scales : list (Z * Q)) (max_tick : Z) : res (list Q) :=
  match rev scales with
  | [] => Err ValueError
  | (s, sc) :: _ =>
    let ms := fold_right Z.max (fst (hd (0, 0%Q) scales)) (map fst scales) in
    let mt := if ms <? max_tick then max_tick else ms in
    let zeros := repeat 0%Q (Z.to_nat (mt + 1)) in
    bind (upd_loop zeros 0 scales) (fun r => let (a, last_end) := r in
      slice_set a s (Z.of_nat (List.length a)) (map (fun k => last_end + sc * k)%Q (arange (mt + 1 - s))))
  end.

(** The tempo part of custom_pretty_midi.py:97-111 from_file: [last] is the largest tick. *)
Definition pm_load (resolution : Z) (evs : list (Z * Z)) (last : Z) : res pm :=
  bind (load_tempo resolution evs) (fun sc =>
    if MAX_TICK <? last + 1 then Err ValueError
    else bind (update_table sc (last + 1)) (fun a => Ok (mkPM resolution sc a))).

(** custom_pretty_midi.py:999-1021 tick_to_time. *)
Definition tick_to_time (p : pm) (tick : Z) : res Q * pm :=
  if MAX_TICK <=? tick then (Err IndexError, p)
  else
    let upd := if Z.of_nat (List.length (p_times p)) <=? tick
               then bind (update_table (p_scales p) tick) (fun a => Ok (mkPM (p_res p) (p_scales p) a))
               else Ok p in
    match upd with
    | Err e => (Err e, p)
    | Ok p' => (py_nth (p_times p') tick, p')
    end.

(** custom_pretty_midi.py:1023-1052 time_to_tick. *)
Definition time_to_tick (p : pm) (t : Q) : res Z :=
  let a := p_times p in
  let i := bisect_left Qltb a t in
  if Nat.eqb i (List.length a) then
    let j := Z.of_nat i - 1 in
    bind (py_nth a j) (fun tl =>
      match rev (p_scales p) with
      | [] => Err IndexError
      | (_, sc) :: _ => if Qeq_bool sc 0 then Err ZeroDivisionError
                        else Ok (round_half_even (inject_Z j + (t - tl) / sc))
      end)
  else if Nat.eqb i 0 then Ok 0
  else bind (py_nth a (Z.of_nat i - 1)) (fun t0 => bind (py_nth a (Z.of_nat i)) (fun t1 =>
         if Qltb (Qabsb (t - t0)) (Qabsb (t - t1)) then Ok (Z.of_nat i - 1) else Ok (Z.of_nat i))).

(** custom_pretty_midi.py:466-485 get_tempo_changes: (times, tempi); time conversion may grow
    the table. *)
Fixpoint tempo_changes_loop (p : pm) (l : list (Z * Q)) : res (list (Q * Q)) * pm :=
  match l with
  | [] => (Ok [], p)
  | (tick, sc) :: r =>
    match tick_to_time p tick with
    | (Err e, p') => (Err e, p')
    | (Ok t, p') =>
      let d := (sc * inject_Z (p_res p'))%Q in
      if Qeq_bool d 0 then (Err ZeroDivisionError, p')
      else match tempo_changes_loop p' r with
           | (Ok l', p'') => (Ok ((t, 60 / d)%Q :: l'), p'')
           | (Err e, p'') => (Err e, p'')
           end
    end
  end.
(** custom_pretty_midi.py:466-485 *)
Definition get_tempo_changes (p : pm) : res (list (Q * Q)) * pm := tempo_changes_loop p (p_scales p).

(** Calls on an object. [custom_pretty_midi.py:129-140, 236-264, 999-1052] *)
Inductive pm_op : Type := PmTime (tick : Z) | PmTick (t : Q) | PmTempi.
(** custom_pretty_midi.py:129-140, 236-264 *)
Definition pm_step (p : pm) (o : pm_op) : pm :=
  match o with PmTime k => snd (tick_to_time p k) | PmTick _ => p | PmTempi => snd (get_tempo_changes p) end.
(** custom_pretty_midi.py:129-140, 236-264 *)
Definition pm_run (p : pm) (ops : list pm_op) : pm := fold_left pm_step ops p.
