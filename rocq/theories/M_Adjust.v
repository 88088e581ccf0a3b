(** Model of adjust_times of neural_graph_composer/custom_pretty_midi.py:1054-1269.  Times are exact
    rationals instead of floats.  Notes and events carry a payload (pitch, velocity, value, ...) that
    is not touched. *)
From Verif Require Import PyBase M_Note M_Beats.
Open Scope Q_scope.

(** numpy.unique(original_times, return_index=True) and new_times[unique_idx]
    (custom_pretty_midi.py:1070-1078): ascending values, each with the new time at its first
    position; None where new_times is too short. *)
Fixpoint with_new (orig new : list Q) : list (Q * option Q) :=
  match orig with
  | [] => []
  | x :: r => match new with [] => (x, None) :: with_new r [] | y :: n => (x, Some y) :: with_new r n end
  end.
(** custom_pretty_midi.py:1070-1078 *)
Fixpoint drop_dups (l : list (Q * option Q)) : list (Q * option Q) :=
  match l with
  | [] => []
  | a :: r => match drop_dups r with
              | b :: r' => if Qeq_bool (fst a) (fst b) then a :: r' else a :: b :: r'
              | [] => [a] end
  end.
(** custom_pretty_midi.py:1070-1078 *)
Definition unique (orig new : list Q) : list (Q * option Q) :=
  drop_dups (py_sort (fun a b => Qltb (fst a) (fst b)) (with_new orig new)).
(** custom_pretty_midi.py:1070-1078 *)
Fixpoint all_some (l : list (Q * option Q)) : res (list (Q * Q)) :=
  match l with
  | [] => Ok []
  | (x, Some y) :: r => bind (all_some r) (fun r' => Ok ((x, y) :: r'))
  | (_, None) :: _ => Err IndexError
  end.
(** custom_pretty_midi.py:1079-1082: numpy.maximum.accumulate unless monotone already. *)
Fixpoint nondecreasing (l : list Q) : bool :=
  match l with a :: (b :: _) as r => Qle_bool 0 (b - a) && nondecreasing r | _ => true end.
(** custom_pretty_midi.py:1079-1082 *)
Fixpoint running_max (m : Q) (l : list Q) : list Q :=
  match l with [] => [] | x :: r => let m' := Qmaxb m x in m' :: running_max m' r end.
(** custom_pretty_midi.py:1079-1082 *)
Definition accumulate (l : list Q) : list Q := match l with [] => [] | x :: r => x :: running_max x r end.
(** custom_pretty_midi.py:1079-1082 *)
Definition time_map (orig new : list Q) : res (list (Q * Q)) :=
  bind (all_some (unique orig new)) (fun m =>
  if nondecreasing (map snd m) then Ok m else Ok (combine (map fst m) (accumulate (map snd m)))).

(** numpy.interp(x, xp, fp): constant outside, linear between neighbours.
    [custom_pretty_midi.py:1094-1098, 1118, 1148, 1173, 1238] *)
Fixpoint interp_from (x0 y0 : Q) (rest : list (Q * Q)) (x : Q) : Q :=
  match rest with
  | [] => y0
  | (x1, y1) :: r => if Qltb x x1 then (y1 - y0) / (x1 - x0) * (x - x0) + y0 else interp_from x1 y1 r x
  end.
(** custom_pretty_midi.py:1094-1098, 1118, 1148, 1173 *)
Definition interp (m : list (Q * Q)) (x : Q) : Q :=
  match m with [] => 0 | (x0, y0) :: r => if Qltb x x0 then y0 else interp_from x0 y0 r x end.

(** custom_pretty_midi.py:1094-1098, 1118, 1148, 1173 *)
Record anote (D : Type) : Type := mkAN { an_start : Q; an_end : Q; an_data : D }.
Arguments mkAN {D}. Arguments an_start {D}. Arguments an_end {D}. Arguments an_data {D}.
(** custom_pretty_midi.py:1094-1098, 1118, 1148, 1173 *)
Record aevent (D : Type) : Type := mkAE { ae_time : Q; ae_data : D }.
Arguments mkAE {D}. Arguments ae_time {D}. Arguments ae_data {D}.
(** custom_pretty_midi.py:1094-1098, 1118, 1148, 1173 *)
Definition first_x (m : list (Q * Q)) : Q := match m with [] => 0 | (x, _) :: _ => x end.
(** custom_pretty_midi.py:1094-1098, 1118, 1148, 1173 *)
Definition last_x (m : list (Q * Q)) : Q := fst (last m (0, 0)).
(** custom_pretty_midi.py:1094-1098, 1118, 1148, 1173 *)
Definition first_y (m : list (Q * Q)) : Q := match m with [] => 0 | (_, y) :: _ => y end.
(** custom_pretty_midi.py:1094-1098, 1118, 1148, 1173 *)
Definition last_y (m : list (Q * Q)) : Q := snd (last m (0, 0)).

(** custom_pretty_midi.py:1084-1106: notes inside the range, corrected, the invalid removed. *)
Definition adjust_note {D} (m : list (Q * Q)) (n : anote D) : anote D :=
  let s := interp m (an_start n) in let e := interp m (an_end n) in
  mkAN (if Qltb 0 s then s else 0) (if Qltb 0 e then e else 0) (an_data n).
(** custom_pretty_midi.py:1084-1106 *)
Definition adjust_notes {D} (m : list (Q * Q)) (l : list (anote D)) : list (anote D) :=
  filter (fun n => negb (Qle_bool (an_end n) (an_start n)))
    (map (adjust_note m)
      (filter (fun n => Qle_bool (first_x m) (an_start n) && Qle_bool (an_end n) (last_x m)) l)).

(** custom_pretty_midi.py:1108-1135 adjust_events and 1141-1162 adjust_meta, for one list with a
    time accessor. *)
Definition keep_in_range {A} (time : A -> Q) (m : list (Q * Q)) (l : list A) : list A :=
  let at_start := filter (fun e => Qeq_bool (time e) (first_y m)) l in
  (match at_start with [] => [] | a :: r => [last r a] end) ++
  filter (fun e => Qltb (first_y m) (time e) && Qltb (time e) (last_y m)) l.
(** custom_pretty_midi.py:1108-1135, 1141-1162 *)
Definition adjust_list {A} (time : A -> Q) (set_time : A -> Q -> A) (m : list (Q * Q)) (l : list A) : list A :=
  keep_in_range time m
    (map (fun e => set_time e (interp m (time e))) (py_sort (fun a b => Qltb (time a) (time b)) l)).
(** custom_pretty_midi.py:1108-1135, 1141-1162 *)
Definition adjust_events {D} (m : list (Q * Q)) (l : list (aevent D)) : list (aevent D) :=
  adjust_list ae_time (fun e t => mkAE t (ae_data e)) m l.
(** custom_pretty_midi.py:1108-1135, 1141-1162 *)
Definition set_ts (s : tsig) (t : Q) : tsig := mkTS (ts_num s) (ts_den s) t.

(** custom_pretty_midi.py:1169-1195: time signatures; [downs] is get_downbeats() before. *)
Fixpoint move_last (p : tsig -> bool) (d : Q) (l : list tsig) : list tsig :=
  match l with
  | [] => []
  | s :: r => if existsb p r then s :: move_last p d r else if p s then set_ts s d :: r else s :: move_last p d r
  end.
(** custom_pretty_midi.py:1169-1195 *)
Definition adjust_sigs (m : list (Q * Q)) (downs : list Q) (l : list tsig) : list tsig :=
  let l1 := adjust_list ts_time set_ts m l in
  match map (interp m) (filter (fun d => Qle_bool (first_x m) d) downs) with
  | [] => l1
  | d :: _ =>
    let before := fun t => Qle_bool (ts_time t) d in
    if existsb before l1 then filter (fun t => Qle_bool d (ts_time t)) (move_last before d l1)
    else mkTS 4 4 d :: l1
  end.

(** custom_pretty_midi.py:1210-1215: breakpoints with progress in both times; [m] holds the
    original times snapped to the tick grid. *)
Fixpoint progress_from (x0 y0 : Q) (rest : list (Q * Q)) : list (Q * Q) :=
  match rest with
  | [] => []
  | (x, y) :: r => if negb (Qeq_bool y0 y) && negb (Qeq_bool x0 x) then (x, y) :: progress_from x y r else progress_from x y r
  end.
(** custom_pretty_midi.py:1210-1215 *)
Definition progress (m : list (Q * Q)) : list (Q * Q) :=
  match m with [] => [] | (x, y) :: r => (x, y) :: progress_from x y r end.
(** custom_pretty_midi.py:1220-1223: skip tempo changes up to the first time. *)
Fixpoint skip_to (x : Q) (q : Q) (rest : list (Q * Q)) : Q * list (Q * Q) :=
  match rest with
  | (t, q') :: r => if Qle_bool t x then skip_to x q' r else (q, rest)
  | [] => (q, [])
  end.
(** custom_pretty_midi.py:1231-1236: the tempo changes inside a zone, scaled. *)
Fixpoint inside (s e k : Q) (q : Q) (rest : list (Q * Q)) : list (Q * Q) * (Q * list (Q * Q)) :=
  match rest with
  | (t, q') :: r =>
    if Qle_bool s t && Qltb t e then let '(l, st) := inside s e k q' r in ((t, q' * k) :: l, st)
    else ([], (q, rest))
  | [] => ([], (q, []))
  end.
(** custom_pretty_midi.py:1216-1236: times (still original) and scaled tempi. *)
Fixpoint zones (x0 y0 : Q) (pts : list (Q * Q)) (q : Q) (rest : list (Q * Q)) : list (Q * Q) :=
  match pts with
  | [] => []
  | (x, y) :: r =>
    let k := (x - x0) / (y - y0) in
    let '(l, (q', rest')) := inside x0 x k q rest in
    (x0, q * k) :: l ++ zones x y r q' rest'
  end.
(** custom_pretty_midi.py:1216-1236 *)
Definition new_tempi (m : list (Q * Q)) (tempi : list (Q * Q)) : list (Q * Q) :=
  match progress m, tempi with
  | (x0, y0) :: r, (_, q0) :: rest =>
    let '(q, rest') := skip_to x0 q0 rest in
    map (fun c => (interp (progress m) (fst c), snd c)) (zones x0 y0 r q rest')
  | _, _ => []
  end.
(** custom_pretty_midi.py:1241-1269: tick scales (tick, seconds per tick); an empty list raises
    IndexError at 1244.  Ticks are rounded half to even (int(round(.))). *)
Fixpoint scales_from (r : Z) (last_tick last_scale prev : Q) (l : list (Q * Q)) : list (Z * Q) :=
  match l with
  | [] => []
  | (t, q) :: rest =>
    let tick := last_tick + (t - prev) / last_scale in
    let scale := 60 / (q * inject_Z r) in
    if Qeq_bool scale last_scale then scales_from r last_tick last_scale prev rest
    else (M_Note.round_half_even tick, scale) :: scales_from r tick scale t rest
  end.
(** custom_pretty_midi.py:1241-1269, 1244 *)
Definition new_scales (r : Z) (l : list (Q * Q)) : res (list (Z * Q)) :=
  match l with
  | [] => Err IndexError
  | (t, q) :: rest =>
    if Qeq_bool t 0 then let s := 60 / (q * inject_Z r) in Ok ((0%Z, s) :: scales_from r 0 s 0 rest)
    else let s := 60 / (120 * inject_Z r) in Ok ((0%Z, s) :: scales_from r 0 s 0 l)
  end.

(** The parts of a piece that adjust_times changes. [custom_pretty_midi.py:1054-1269] *)
Record piece (N B C K L : Type) : Type := mkPiece {
  p_notes : list (list (anote N)); p_bends : list (list (aevent B)); p_ccs : list (list (aevent C));
  p_keys : list (aevent K); p_lyrics : list (aevent L); p_sigs : list tsig; p_scales : list (Z * Q) }.
Arguments mkPiece {N B C K L}. Arguments p_notes {N B C K L}. Arguments p_bends {N B C K L}. Arguments p_ccs {N B C K L}.
Arguments p_keys {N B C K L}. Arguments p_lyrics {N B C K L}. Arguments p_sigs {N B C K L}. Arguments p_scales {N B C K L}.
(** custom_pretty_midi.py:1054-1269 adjust_times.  [downs]: get_downbeats() of the piece; [snap]: time
    to the time of its nearest tick (1206-1207); [tempi]: get_tempo_changes().  Everything but the
    tick scales is already changed when IndexError is raised at 1244. *)
Definition adjust_times {N B C K L} (r : Z) (downs : list Q) (snap : Q -> Q) (tempi : list (Q * Q))
    (orig new : list Q) (p : piece N B C K L) : res unit * piece N B C K L :=
  match time_map orig new with
  | Err e => (Err e, p)
  | Ok [] => (Err (if forallb (fun l => match l with [] => true | _ => false end) (p_notes p) then ValueError else IndexError), p)
  | Ok m =>
    let p1 := mkPiece (map (adjust_notes m) (p_notes p)) (map (adjust_events m) (p_bends p)) (map (adjust_events m) (p_ccs p))
                (adjust_events m (p_keys p)) (adjust_events m (p_lyrics p)) (adjust_sigs m downs (p_sigs p)) (p_scales p) in
    match new_scales r (new_tempi (map (fun c => (snap (fst c), snd c)) m) tempi) with
    | Err e => (Err e, p1)
    | Ok s => (Ok tt, mkPiece (p_notes p1) (p_bends p1) (p_ccs p1) (p_keys p1) (p_lyrics p1) (p_sigs p1) s)
    end
  end.
