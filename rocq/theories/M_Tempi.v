(** Model of get_onsets, estimate_tempi, estimate_tempo and estimate_beat_start of
    neural_graph_composer/custom_pretty_midi.py.  Times are exact rationals instead of floats. *)
From Coq Require Import Qround.
From Verif Require Import PyBase M_NoteExtra M_Events M_Beats.
Open Scope Q_scope.

(** custom_pretty_midi.py:800-813 get_onsets: [insts] holds the note starts of each instrument
    (pretty_midi's Instrument.get_onsets sorts them). *)
Definition sort_q (l : list Q) : list Q := py_sort Qltb l.
(** custom_pretty_midi.py:800-813 *)
Definition get_onsets (insts : list (list Q)) : list Q := sort_q (List.concat (map sort_q insts)).

(** custom_pretty_midi.py:525-526: inner-onset intervals that carry rhythm. *)
Definition usable (iois : list Q) : list Q :=
  filter (fun x => Qltb x 2) (filter (fun x => Qltb (1 # 20) x) iois).
(** custom_pretty_midi.py:528-530: while ioi < .2: ioi *= 2.  [fuel] bounds the iterations; a value
    above 0.05 needs at most two. *)
Fixpoint fold_ioi (fuel : nat) (x : Q) : Q :=
  if Qltb x (1 # 5) then match fuel with O => x | S k => fold_ioi k (x * 2) end else x.

(** numpy.argmin: the first position of the minimum. [custom_pretty_midi.py:537] *)
Fixpoint argmin_from (best : nat) (m : Q) (i : nat) (l : list Q) : nat :=
  match l with
  | [] => best
  | x :: r => if Qltb x m then argmin_from i x (S i) r else argmin_from best m (S i) r
  end.
(** custom_pretty_midi.py:537 *)
Definition argmin (l : list Q) : nat := match l with [] => O | x :: r => argmin_from O x 1 r end.
(** custom_pretty_midi.py:537 *)
Fixpoint update_at {A} (k : nat) (f : A -> A) (l : list A) : list A :=
  match l, k with
  | [], _ => []
  | x :: r, O => f x :: r
  | x :: r, S k' => x :: update_at k' f r
  end.
(** custom_pretty_midi.py:535-547: a cluster is (mean, count).  The position argmin(clusters -
    interval) is that of the smallest mean, whatever the interval is. *)
Definition add_interval (cl : list (Q * Q)) (x : Q) : list (Q * Q) :=
  if existsb (fun c => Qltb (Qabsb (fst c - x)) (25 # 1000)) cl then
    update_at (argmin (map (fun c => fst c - x) cl))
      (fun c => ((snd c * fst c + x) / (snd c + 1), snd c + 1)) cl
  else cl ++ [(x, 1)].
(** custom_pretty_midi.py:507-553 estimate_tempi.  [argsort] is numpy's (unstable) argsort. *)
Definition estimate_tempi (argsort : list Q -> list nat) (onsets : list Q) : list Q * list Q :=
  let cl := fold_left add_interval (map (fold_ioi 3) (usable (np_diff onsets))) [] in
  let order := rev (argsort (map snd cl)) in
  let cl' := map (fun i => nth i cl (0, 0)) order in
  let total := fold_left Qplus (map snd cl') 0 in
  (map (fun c => 60 / fst c) cl', map (fun c => snd c / total) cl').
(** custom_pretty_midi.py:555-567 estimate_tempo. *)
Definition estimate_tempo (argsort : list Q -> list nat) (onsets : list Q) : res Q :=
  match fst (estimate_tempi argsort onsets) with [] => Err ValueError | t :: _ => Ok t end.

(** A note as estimate_beat_start sees it: start, end, velocity. [custom_pretty_midi.py:686-739] *)
Record bnote : Type := mkBN { bn_start : Q; bn_end : Q; bn_vel : Q }.
(** custom_pretty_midi.py:699: sort by start. *)
Definition sort_notes (l : list bnote) : list bnote := py_sort (fun a b => Qltb (bn_start a) (bn_start b)) l.
(** custom_pretty_midi.py:706-715: the candidate starts; [n] candidates so far, [total] notes. *)
Fixpoint pick (cand total n : Z) (prev : option Q) (notes : list bnote) : list Q :=
  match notes with
  | [] => []
  | a :: r =>
    if ((n <=? cand) && (n <=? total))%Z then
      let fresh := match prev with None => true | Some p => Qltb (1 # 1000) (Qabsb (p - bn_start a)) end in
      if fresh then bn_start a :: pick cand total (n + 1) (Some (bn_start a)) r
      else pick cand total n (Some (bn_start a)) r
    else []
  end.
(** custom_pretty_midi.py:727-736: sample positions [lo, hi) of the window around a beat, at 1000
    samples per second. *)
Definition beat_window (tol b : Q) : Z * Z :=
  if Qltb (b - tol) 0 then (0, Qtrunc ((b + tol) * 1000))%Z
  else (Qtrunc ((b - tol) * 1000), Qtrunc ((b - tol) * 1000) + Qtrunc (1000 * tol * 2))%Z.
(** custom_pretty_midi.py:718-738: the dot product of the 0/1 beat signal and the velocity spikes is
    the sum of the velocities of the notes inside some window.  A window that does not fit the
    signal of int(1000*(end+1)) samples raises ValueError (numpy broadcasting; a window of one
    sample, which would be accepted, is not distinguished). *)
Definition beat_score (siglen : Z) (tol : Q) (notes : list bnote) (beats : list Q) : res Q :=
  let ws := map (beat_window tol) (0 :: beats) in
  if existsb (fun w => siglen <? snd w)%Z ws then Err ValueError
  else Ok (fold_left Qplus (map (fun a =>
        let i := Qtrunc (bn_start a * 1000) in
        if existsb (fun w => (fst w <=? i) && (i <? snd w))%Z ws then bn_vel a else 0) notes) 0
       / inject_Z (Z.of_nat (List.length beats))).
(** custom_pretty_midi.py:718-738 *)
Fixpoint all_ok {A} (l : list (res A)) : res (list A) :=
  match l with [] => Ok [] | x :: r => bind x (fun a => bind (all_ok r) (fun b => Ok (a :: b))) end.
(** numpy.argmax: first position of the maximum. [custom_pretty_midi.py:739] *)
Definition argmax (l : list Q) : nat := argmin (map Qopp l).
(** custom_pretty_midi.py:679-739 estimate_beat_start.  [others] as in get_beats (the times of note
    ends among them); Ok None when the loop bound of get_beats does not suffice, or when a candidate
    has no beat at all (numpy then divides by zero, giving inf or NaN). *)
Definition estimate_beat_start (fuel : nat) (tempi : list (Q * Q)) (sigs : list tsig) (others : list Q)
    (notes : list bnote) (candidates : Z) (tol : Q) : res (option Q) :=
  match notes with
  | [] => Err ValueError
  | _ =>
    let l := sort_notes notes in
    let starts := pick candidates (Z.of_nat (List.length l)) 0 None l in
    bind (all_ok (map (get_beats fuel tempi sigs others) starts)) (fun bs =>
    let siglen := Qtrunc (1000 * (piece_end tempi (sort_sigs sigs) others + 1)) in
    if existsb (fun b => match b with None | Some [] => true | _ => false end) bs then Ok None
    else
      bind (all_ok (map (fun b => match b with Some b => beat_score siglen tol l b | None => Ok 0 end) bs)) (fun scores =>
      match starts with
      | [] => Err ValueError
      | s :: _ => Ok (Some (nth (argmax scores) starts s))
      end))
  end.
