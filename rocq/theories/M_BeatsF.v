(** Model of get_beats and get_downbeats of neural_graph_composer/custom_pretty_midi.py in double
    precision: every addition, subtraction, multiplication and division rounds to the nearest
    double ([fl], M_Float); comparisons are exact.  Simplification: no overflow, no subnormals, and
    tempi are positive.  Reuses the state and the index moves of M_Beats, which only compare. *)
From Verif Require Import PyBase M_Float M_Beats.
Open Scope Q_scope.

(** pretty_midi.utilities.qpm_to_bpm (external library, called at custom_pretty_midi.py:612),
    for positive arguments. *)
Definition qpm_to_bpm_f (q : Q) (num den : Z) : Q :=
  if existsb (Z.eqb den) [1; 2; 4; 8; 16; 32]%Z then
    if (num =? 3)%Z then fl (fl (q * inject_Z den) / 4)
    else if (num mod 3 =? 0)%Z then fl (fl (fl (q / 3) * inject_Z den) / 4)
    else fl (fl (q * inject_Z den) / 4)
  else q.
(** custom_pretty_midi.py:607-621 get_current_bpm *)
Definition bpm_of_f (sig : option tsig) (q : Q) : Q :=
  match sig with None => q | Some s => qpm_to_bpm_f q (ts_num s) (ts_den s) end.

(** np.isclose(a, b) with its default tolerances, in doubles. [custom_pretty_midi.py:623-625] *)
Definition np_isclose_f (a b : Q) : bool :=
  Qle_bool (Qabsb (fl (a - b))) (fl (fl (1 # 100000000) + fl (fl (1 # 100000) * Qabsb b))).
(** custom_pretty_midi.py:623-625 *)
Definition gt_or_close_f (a b : Q) : bool := Qltb b a || np_isclose_f a b.

(** beats[-1] + 60.0 / bpm. [custom_pretty_midi.py:631-633] *)
Definition after_f (last bpm : Q) : Q := fl (last + fl (60 / bpm)).
(** next_beat + beat_remaining * 60.0 / bpm. [custom_pretty_midi.py:643-644, 655] *)
Definition reach_f (nb remaining bpm : Q) : Q := fl (nb + fl (fl (remaining * 60) / bpm)).
(** custom_pretty_midi.py:638-655: the beat crosses tempo changes. *)
Fixpoint cross_f (f : Q -> Q) (nb remaining q : Q) (rest : list (Q * Q)) : Q * (Q * list (Q * Q)) :=
  match rest with
  | (t, q') :: r =>
    if Qle_bool t (reach_f nb remaining (f q)) then
      let ratio := fl (fl (t - nb) / fl (60 / f q)) in
      cross_f f (reach_f nb ratio (f q)) (fl (remaining - ratio)) q' r
    else (reach_f nb remaining (f q), (q, rest))
  | [] => (reach_f nb remaining (f q), (q, []))
  end.
(** custom_pretty_midi.py:630-655: the beat by tempo alone. *)
Definition tempo_beat_f (f : Q -> Q) (last q : Q) (rest : list (Q * Q)) : Q * (Q * list (Q * Q)) :=
  match rest with
  | (t, _) :: _ => if Qltb t (after_f last (f q)) then cross_f f last 1 q rest else (after_f last (f q), (q, rest))
  | [] => (after_f last (f q), (q, []))
  end.
(** custom_pretty_midi.py:656-663: the first signature lies ahead. *)
Definition first_snap_f (st : bstate) (nb : Q) : Q :=
  match b_sig st with
  | Some s => if b_first st && Qltb (b_last st) (ts_time s) && gt_or_close_f nb (ts_time s) then ts_time s else nb
  | None => nb
  end.
(** custom_pretty_midi.py:627-675: one iteration of the loop. *)
Definition next_beat_f (st : bstate) : bstate :=
  let '(nb1, (q, rest)) := tempo_beat_f (bpm_of_f (b_sig st)) (b_last st) (b_qpm st) (b_rest st) in
  let nb2 := first_snap_f st nb1 in
  match b_sigs st with
  | s :: r => if gt_or_close_f nb2 (ts_time s) then mkBS (ts_time s) q rest false (Some s) r
              else mkBS nb2 q rest (b_first st) (b_sig st) (s :: r)
  | [] => mkBS nb2 q rest (b_first st) (b_sig st) []
  end.
(** custom_pretty_midi.py:627-678: the while loop, the last beat dropped; [fuel] bounds the number
    of iterations, None if it does not suffice. *)
Fixpoint beat_loop_f (fuel : nat) (stop : Q) (st : bstate) : option (list Q) :=
  if Qltb (b_last st) stop then
    match fuel with
    | O => None
    | S k => match beat_loop_f k stop (next_beat_f st) with Some l => Some (b_last st :: l) | None => None end
    end
  else Some [].
(** custom_pretty_midi.py:569-678 get_beats: [others] are the instruments' end times and the times
    of key signatures and lyrics. *)
Definition get_beats_f (fuel : nat) (tempi : list (Q * Q)) (sigs : list tsig) (others : list Q) (start : Q) : res (option (list Q)) :=
  bind (beats_init tempi (sort_sigs sigs) start) (fun st => Ok (beat_loop_f fuel (piece_end tempi (sort_sigs sigs) others) st)).

(** custom_pretty_midi.py:763-771 index: first position of a value close to [v]. *)
Fixpoint find_close_f (a : list Q) (v : Q) : option nat :=
  match a with
  | [] => None
  | x :: r => if np_isclose_f x v then Some O else option_map S (find_close_f r v)
  end.
(** custom_pretty_midi.py:763-771 *)
Definition index_close_f (a : list Q) (v : Q) (d : nat) : nat :=
  match find_close_f a v with Some i => i | None => d end.
(** custom_pretty_midi.py:775-798: the spans of signatures, then the final one. *)
Fixpoint down_spans_f (beats : list Q) (end_idx : nat) (s : tsig) (rest : list tsig) : res (list Q) :=
  match rest with
  | s' :: r =>
    let i := index_close_f beats (ts_time s) 0 in
    let j := index_close_f beats (ts_time s') i in
    bind (stride (ts_num s) (slice beats i j)) (fun a => bind (down_spans_f beats j s' r) (fun b => Ok (a ++ b)))
  | [] => stride (ts_num s) (skipn (index_close_f beats (ts_time s) end_idx) beats)
  end.
(** custom_pretty_midi.py:741-800 get_downbeats, given the beats; [sigs] sorted. *)
Definition downbeats_of_f (beats : list Q) (sigs : list tsig) (start : Q) : res (list Q) :=
  let add := mkTS 4 4 start in
  bind (match sigs with
        | [] => down_spans_f beats 0 add []
        | s :: r => if Qltb start (ts_time s) then down_spans_f beats 0 add (s :: r) else down_spans_f beats 0 s r
        end) (fun l => Ok (filter (fun x => Qle_bool start x) l)).
(** custom_pretty_midi.py:741-800 *)
Definition get_downbeats_f (fuel : nat) (tempi : list (Q * Q)) (sigs : list tsig) (others : list Q) (start : Q) : res (option (list Q)) :=
  bind (get_beats_f fuel tempi sigs others start) (fun b =>
    match b with
    | None => Ok None
    | Some l => bind (downbeats_of_f l (sort_sigs sigs) start) (fun d => Ok (Some d))
    end).
