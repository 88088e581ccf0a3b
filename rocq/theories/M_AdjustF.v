(** Model of adjust_times of neural_graph_composer/custom_pretty_midi.py:1054-1269 in double
    precision: every addition, subtraction, multiplication and division rounds to the nearest double
    ([fl], M_Float); comparisons, sorting and the choice of the new times are exact and taken over
    from M_Adjust.  Simplification: no overflow and no subnormals. *)
From Verif Require Import PyBase M_Note M_Float M_Beats M_Adjust.
Open Scope Q_scope.

(** (fp[j+1] - fp[j]) / (xp[j+1] - xp[j]) of numpy.interp. [custom_pretty_midi.py:1094-1098, 1118, 1148, 1173, 1238] *)
Definition slope_f (x0 y0 x1 y1 : Q) : Q := fl (fl (y1 - y0) / fl (x1 - x0)).
(** numpy.interp(x, xp, fp), a time that is a breakpoint keeping its value.
    [custom_pretty_midi.py:1094-1098, 1118, 1148, 1173, 1238] *)
Fixpoint interp_from_f (x0 y0 : Q) (rest : list (Q * Q)) (x : Q) : Q :=
  match rest with
  | [] => y0
  | (x1, y1) :: r =>
    if Qltb x x1 then
      if Qeq_bool x0 x then y0 else fl (fl (slope_f x0 y0 x1 y1 * fl (x - x0)) + y0)
    else interp_from_f x1 y1 r x
  end.
(** custom_pretty_midi.py:1094-1098, 1118, 1148, 1173, 1238 *)
Definition interp_f (m : list (Q * Q)) (x : Q) : Q :=
  match m with [] => 0 | (x0, y0) :: r => if Qltb x x0 then y0 else interp_from_f x0 y0 r x end.

(** custom_pretty_midi.py:1084-1106: notes inside the range, corrected, the invalid removed. *)
Definition adjust_note_f {D} (m : list (Q * Q)) (n : anote D) : anote D :=
  let s := interp_f m (an_start n) in let e := interp_f m (an_end n) in
  mkAN (if Qltb 0 s then s else 0) (if Qltb 0 e then e else 0) (an_data n).
(** custom_pretty_midi.py:1084-1106 *)
Definition adjust_notes_f {D} (m : list (Q * Q)) (l : list (anote D)) : list (anote D) :=
  filter (fun n => negb (Qle_bool (an_end n) (an_start n)))
    (map (adjust_note_f m)
      (filter (fun n => Qle_bool (first_x m) (an_start n) && Qle_bool (an_end n) (last_x m)) l)).
(** custom_pretty_midi.py:1108-1135, 1141-1162 *)
Definition adjust_list_f {A} (time : A -> Q) (set_time : A -> Q -> A) (m : list (Q * Q)) (l : list A) : list A :=
  keep_in_range time m
    (map (fun e => set_time e (interp_f m (time e))) (py_sort (fun a b => Qltb (time a) (time b)) l)).
(** custom_pretty_midi.py:1108-1135, 1141-1162 *)
Definition adjust_events_f {D} (m : list (Q * Q)) (l : list (aevent D)) : list (aevent D) :=
  adjust_list_f ae_time (fun e t => mkAE t (ae_data e)) m l.
(** custom_pretty_midi.py:1169-1195: time signatures; [downs] is get_downbeats() before. *)
Definition adjust_sigs_f (m : list (Q * Q)) (downs : list Q) (l : list tsig) : list tsig :=
  let l1 := adjust_list_f ts_time set_ts m l in
  match map (interp_f m) (filter (fun d => Qle_bool (first_x m) d) downs) with
  | [] => l1
  | d :: _ =>
    let before := fun t => Qle_bool (ts_time t) d in
    if existsb before l1 then filter (fun t => Qle_bool d (ts_time t)) (move_last before d l1)
    else mkTS 4 4 d :: l1
  end.

(** custom_pretty_midi.py:1231-1236: the tempo changes inside a zone, scaled. *)
Fixpoint inside_f (s e k : Q) (q : Q) (rest : list (Q * Q)) : list (Q * Q) * (Q * list (Q * Q)) :=
  match rest with
  | (t, q') :: r =>
    if Qle_bool s t && Qltb t e then let '(l, st) := inside_f s e k q' r in ((t, fl (q' * k)) :: l, st)
    else ([], (q, rest))
  | [] => ([], (q, []))
  end.
(** custom_pretty_midi.py:1216-1236: times (still original) and scaled tempi; the scale is
    np.diff(original_times) / np.diff(new_times). *)
Fixpoint zones_f (x0 y0 : Q) (pts : list (Q * Q)) (q : Q) (rest : list (Q * Q)) : list (Q * Q) :=
  match pts with
  | [] => []
  | (x, y) :: r =>
    let k := fl (fl (x - x0) / fl (y - y0)) in
    let '(l, (q', rest')) := inside_f x0 x k q rest in
    (x0, fl (q * k)) :: l ++ zones_f x y r q' rest'
  end.
(** custom_pretty_midi.py:1210-1239 *)
Definition new_tempi_f (m : list (Q * Q)) (tempi : list (Q * Q)) : list (Q * Q) :=
  match progress m, tempi with
  | (x0, y0) :: r, (_, q0) :: rest =>
    let '(q, rest') := skip_to x0 q0 rest in
    map (fun c => (interp_f (progress m) (fst c), snd c)) (zones_f x0 y0 r q rest')
  | _, _ => []
  end.
(** 60.0 / (tempo * self.resolution). [custom_pretty_midi.py:1247, 1250, 1260] *)
Definition tick_scale_f (q : Q) (r : Z) : Q := fl (60 / fl (q * inject_Z r)).
(** custom_pretty_midi.py:1241-1269: tick scales; the running tick is a double, rounded half to even
    (int(round(.))) only where it is stored. *)
Fixpoint scales_from_f (r : Z) (last_tick last_scale prev : Q) (l : list (Q * Q)) : list (Z * Q) :=
  match l with
  | [] => []
  | (t, q) :: rest =>
    let tick := fl (last_tick + fl (fl (t - prev) / last_scale)) in
    let scale := tick_scale_f q r in
    if Qeq_bool scale last_scale then scales_from_f r last_tick last_scale prev rest
    else (M_Note.round_half_even tick, scale) :: scales_from_f r tick scale t rest
  end.
(** custom_pretty_midi.py:1241-1269, 1244 *)
Definition new_scales_f (r : Z) (l : list (Q * Q)) : res (list (Z * Q)) :=
  match l with
  | [] => Err IndexError
  | (t, q) :: rest =>
    if Qeq_bool t 0 then let s := tick_scale_f q r in Ok ((0%Z, s) :: scales_from_f r 0 s 0 rest)
    else let s := tick_scale_f 120 r in Ok ((0%Z, s) :: scales_from_f r 0 s 0 l)
  end.
(** custom_pretty_midi.py:1054-1269 adjust_times, with the parameters of M_Adjust.adjust_times. *)
Definition adjust_times_f {N B C K L} (r : Z) (downs : list Q) (snap : Q -> Q) (tempi : list (Q * Q))
    (orig new : list Q) (p : piece N B C K L) : res unit * piece N B C K L :=
  match time_map orig new with
  | Err e => (Err e, p)
  | Ok [] => (Err (if forallb (fun l => match l with [] => true | _ => false end) (p_notes p) then ValueError else IndexError), p)
  | Ok m =>
    let p1 := mkPiece (map (adjust_notes_f m) (p_notes p)) (map (adjust_events_f m) (p_bends p)) (map (adjust_events_f m) (p_ccs p))
                (adjust_events_f m (p_keys p)) (adjust_events_f m (p_lyrics p)) (adjust_sigs_f m downs (p_sigs p)) (p_scales p) in
    match new_scales_f r (new_tempi_f (map (fun c => (snap (fst c), snd c)) m) tempi) with
    | Err e => (Err e, p1)
    | Ok s => (Ok tt, mkPiece (p_notes p1) (p_bends p1) (p_ccs p1) (p_keys p1) (p_lyrics p1) (p_sigs p1) s)
    end
  end.
