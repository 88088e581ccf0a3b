(** Model of get_end_time, get_beats and get_downbeats of
    neural_graph_composer/custom_pretty_midi.py.  Times and tempi are exact rationals instead of
    floats (simplification).  The tempo map is the result of get_tempo_changes (M_Ticks): a
    non-empty list of (time, quarter notes per minute). *)
From Verif Require Import PyBase.
Open Scope Q_scope.

(** A pretty_midi TimeSignature. [custom_pretty_midi.py:569-677] *)
Record tsig : Type := mkTS { ts_num : Z; ts_den : Z; ts_time : Q }.

(** pretty_midi.utilities.qpm_to_bpm (external library, called at custom_pretty_midi.py:612),
    for positive arguments. *)
Definition qpm_to_bpm (q : Q) (num den : Z) : Q :=
  if existsb (Z.eqb den) [1; 2; 4; 8; 16; 32]%Z then
    if (num =? 3)%Z then q * inject_Z den / 4
    else if (num mod 3 =? 0)%Z then q / 3 * inject_Z den / 4
    else q * inject_Z den / 4
  else q.

(** np.isclose(a, b): |a - b| <= 1e-8 + 1e-5 |b|; custom_pretty_midi.py:623-625 gt_or_close. *)
Definition np_isclose (a b : Q) : bool :=
  Qle_bool (Qabsb (a - b)) ((1 # 100000000) + (1 # 100000) * Qabsb b).
(** custom_pretty_midi.py:623-625 *)
Definition gt_or_close (a b : Q) : bool := Qltb b a || np_isclose a b.

(** custom_pretty_midi.py:607-621 get_current_bpm: [sig] is the current signature, if any. *)
Definition bpm_of (sig : option tsig) (q : Q) : Q :=
  match sig with None => q | Some s => qpm_to_bpm q (ts_num s) (ts_den s) end.

(** custom_pretty_midi.py:487-505 get_end_time: [times] are the instruments' end times, the times
    of all meta events and of the tempo changes. *)
Definition end_time (times : list Q) : Q :=
  match times with [] => 0 | t :: r => fold_left (fun m x => if Qltb m x then x else m) r t end.

(** The loop state of get_beats: the last beat, the current tempo and the later tempo changes,
    whether ts_idx is 0, the current signature and the later ones. [custom_pretty_midi.py:596-673] *)
Record bstate : Type := mkBS {
  b_last : Q; b_qpm : Q; b_rest : list (Q * Q);
  b_first : bool; b_sig : option tsig; b_sigs : list tsig }.

(** custom_pretty_midi.py:593-595: skip tempo changes before the start. *)
Fixpoint skip_tempo (start q : Q) (rest : list (Q * Q)) : Q * list (Q * Q) :=
  match rest with
  | (t, q') :: r => if Qltb t start then skip_tempo start q' r else (q, rest)
  | [] => (q, [])
  end.
(** custom_pretty_midi.py:601-603: skip signatures up to the start. *)
Fixpoint skip_sigs (start : Q) (first : bool) (s : tsig) (rest : list tsig) : bool * (tsig * list tsig) :=
  match rest with
  | s' :: r => if Qle_bool (ts_time s') start then skip_sigs start false s' r else (first, (s, rest))
  | [] => (first, (s, []))
  end.
(** custom_pretty_midi.py:597: self.time_signature_changes.sort(key=lambda ts: ts.time). *)
Definition sort_sigs (l : list tsig) : list tsig := py_sort (fun a b => Qltb (ts_time a) (ts_time b)) l.
(** custom_pretty_midi.py:586-603 up to the loop; [sigs] sorted. *)
Definition beats_init (tempi : list (Q * Q)) (sigs : list tsig) (start : Q) : res bstate :=
  match tempi with
  | [] => Err IndexError
  | (_, q0) :: rest =>
    let (q, r) := skip_tempo start q0 rest in
    match sigs with
    | [] => Ok (mkBS start q r true None [])
    | s :: ss => let '(f, (s', r')) := skip_sigs start true s ss in Ok (mkBS start q r f (Some s') r')
    end
  end.

(** custom_pretty_midi.py:638-655: the beat crosses tempo changes; [f] is the bpm for a tempo.
    Returns the beat, the new tempo and the later changes. *)
Fixpoint cross (f : Q -> Q) (nb remaining q : Q) (rest : list (Q * Q)) : Q * (Q * list (Q * Q)) :=
  match rest with
  | (t, q') :: r =>
    if Qle_bool t (nb + remaining * 60 / f q) then
      let ratio := (t - nb) / (60 / f q) in
      cross f (nb + ratio * 60 / f q) (remaining - ratio) q' r
    else (nb + remaining * 60 / f q, (q, rest))
  | [] => (nb + remaining * 60 / f q, (q, []))
  end.
(** custom_pretty_midi.py:630-655: the beat by tempo alone. *)
Definition tempo_beat (f : Q -> Q) (last q : Q) (rest : list (Q * Q)) : Q * (Q * list (Q * Q)) :=
  let nb := last + 60 / f q in
  match rest with
  | (t, _) :: _ => if Qltb t nb then cross f last 1 q rest else (nb, (q, rest))
  | [] => (nb, (q, []))
  end.
(** custom_pretty_midi.py:656-663: the first signature lies ahead. *)
Definition first_snap (st : bstate) (nb : Q) : Q :=
  match b_sig st with
  | Some s => if b_first st && Qltb (b_last st) (ts_time s) && gt_or_close nb (ts_time s) then ts_time s else nb
  | None => nb
  end.
(** custom_pretty_midi.py:627-675: one iteration of the loop. *)
Definition next_beat (st : bstate) : bstate :=
  let '(nb1, (q, rest)) := tempo_beat (bpm_of (b_sig st)) (b_last st) (b_qpm st) (b_rest st) in
  let nb2 := first_snap st nb1 in
  match b_sigs st with
  | s :: r => if gt_or_close nb2 (ts_time s) then mkBS (ts_time s) q rest false (Some s) r
              else mkBS nb2 q rest (b_first st) (b_sig st) (s :: r)
  | [] => mkBS nb2 q rest (b_first st) (b_sig st) []
  end.
(** custom_pretty_midi.py:627-678: the while loop, the last beat dropped; [fuel] bounds the number
    of iterations, None if it does not suffice. *)
Fixpoint beat_loop (fuel : nat) (stop : Q) (st : bstate) : option (list Q) :=
  if Qltb (b_last st) stop then
    match fuel with
    | O => None
    | S k => match beat_loop k stop (next_beat st) with Some l => Some (b_last st :: l) | None => None end
    end
  else Some [].
(** custom_pretty_midi.py:569-678 get_beats: [others] are the instruments' end times and the times
    of key signatures and lyrics. *)
Definition piece_end (tempi : list (Q * Q)) (sigs : list tsig) (others : list Q) : Q :=
  end_time (others ++ map ts_time sigs ++ map fst tempi).
(** custom_pretty_midi.py:569-678 *)
Definition get_beats (fuel : nat) (tempi : list (Q * Q)) (sigs : list tsig) (others : list Q) (start : Q) : res (option (list Q)) :=
  bind (beats_init tempi (sort_sigs sigs) start) (fun st => Ok (beat_loop fuel (piece_end tempi (sort_sigs sigs) others) st)).

(** custom_pretty_midi.py:763-771 index: first position of a value close to [v]. *)
Fixpoint find_close (a : list Q) (v : Q) : option nat :=
  match a with
  | [] => None
  | x :: r => if np_isclose x v then Some O else option_map S (find_close r v)
  end.
(** custom_pretty_midi.py:763-771 *)
Definition index_close (a : list Q) (v : Q) (d : nat) : nat :=
  match find_close a v with Some i => i | None => d end.
(** a[::n], n > 0. [custom_pretty_midi.py:741-798] *)
Fixpoint every_from (n k : nat) (a : list Q) : list Q :=
  match a with
  | [] => []
  | x :: r => match k with O => x :: every_from n (n - 1) r | S k' => every_from n k' r end
  end.
(** custom_pretty_midi.py:741-798 *)
Definition every (n : nat) (a : list Q) : list Q := every_from n 0 a.
(** custom_pretty_midi.py:784-789, 793-796: beats per bar; a slice step of 0 raises ValueError.
    Numerators are assumed non-negative. *)
Definition bar_step (num : Z) : nat :=
  Z.to_nat (if ((num mod 3 =? 0) && negb (num =? 3))%Z then (num / 3)%Z else num).
(** custom_pretty_midi.py:784-789, 793-796 *)
Definition stride (num : Z) (a : list Q) : res (list Q) :=
  match bar_step num with O => Err ValueError | n => Ok (every n a) end.
(** a[s:e] [custom_pretty_midi.py:741-798] *)
Definition slice (a : list Q) (s e : nat) : list Q := firstn (e - s) (skipn s a).
(** custom_pretty_midi.py:775-798: the spans of signatures, then the final one. *)
Fixpoint down_spans (beats : list Q) (end_idx : nat) (s : tsig) (rest : list tsig) : res (list Q) :=
  match rest with
  | s' :: r =>
    let i := index_close beats (ts_time s) 0 in
    let j := index_close beats (ts_time s') i in
    bind (stride (ts_num s) (slice beats i j)) (fun a => bind (down_spans beats j s' r) (fun b => Ok (a ++ b)))
  | [] => stride (ts_num s) (skipn (index_close beats (ts_time s) end_idx) beats)
  end.
(** custom_pretty_midi.py:741-800 get_downbeats, given the beats; [sigs] sorted. *)
Definition downbeats_of (beats : list Q) (sigs : list tsig) (start : Q) : res (list Q) :=
  let add := mkTS 4 4 start in
  bind (match sigs with
        | [] => down_spans beats 0 add []
        | s :: r => if Qltb start (ts_time s) then down_spans beats 0 add (s :: r) else down_spans beats 0 s r
        end) (fun l => Ok (filter (fun x => Qle_bool start x) l)).
(** custom_pretty_midi.py:741-800 *)
Definition get_downbeats (fuel : nat) (tempi : list (Q * Q)) (sigs : list tsig) (others : list Q) (start : Q) : res (option (list Q)) :=
  bind (get_beats fuel tempi sigs others start) (fun b =>
    match b with
    | None => Ok None
    | Some l => bind (downbeats_of l (sort_sigs sigs) start) (fun d => Ok (Some d))
    end).
