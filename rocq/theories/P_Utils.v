(** Properties C59, C60 and C99-C104: tempo conversions, frames and the stand-alone quantisers.
    [nearest_even x m]: m is the integer nearest to x, the even one of two. *)
From Coq Require Import QArith Qabs Lia Lqa.
From Verif Require Import PyBase M_Utils S_Graph S_Utils L_Utils L_Utils2 L_Utils3.
Open Scope Z_scope.

(** C59: the number of steps is rounded by magnitude, away from zero exactly if its fractional part
    is at least steps_per_second times the threshold. *)
Theorem C59_rounds : forall t sps thr, (0 < sps)%Q -> (0 <= thr)%Q -> (thr < 1)%Q ->
  exists r, ft_quantize (Num t) (Num sps) (Num thr) = Ok r /\ rounded_at (sps * thr) (t * sps) r.
Proof. exact ft_ok. Qed.
Print Assumptions C59_rounds.
(** C59: which arguments are rejected. *)
Theorem C59_errors : forall a b c,
  (ft_quantize a b c = Err TypeError <-> a = Other \/ b = Other \/ c = Other) /\
  (forall e, ft_quantize a b c = Err e -> e = TypeError \/ e = ValueError) /\
  (forall t sps thr, a = Num t -> b = Num sps -> c = Num thr -> (ft_quantize a b c = Err ValueError <-> (sps <= 0)%Q \/ (thr < 0)%Q \/ (1 <= thr)%Q)).
Proof. exact ft_errors. Qed.
Print Assumptions C59_errors.
(** C59: the documented rule (compare with the threshold itself) holds for all times only for one
    step per second or threshold 0. *)
Theorem C59_documented : forall sps thr, (0 < sps)%Q -> (0 <= thr)%Q -> (thr < 1)%Q ->
  ((forall t, (0 <= t)%Q -> exists r, ft_quantize (Num t) (Num sps) (Num thr) = Ok r /\ rounded_at thr (t * sps) r) <-> (sps == 1)%Q \/ (thr == 0)%Q).
Proof. exact ft_documented. Qed.
Print Assumptions C59_documented.
(** C59: every result is a nearest step exactly if steps_per_second times threshold is 1/2. *)
Theorem C59_nearest : forall sps thr, (0 < sps)%Q -> (0 <= thr)%Q -> (thr < 1)%Q ->
  ((forall t r, ft_quantize (Num t) (Num sps) (Num thr) = Ok r -> (Qabs (inject_Z r - t * sps) <= 1 # 2)%Q) <-> (sps * thr == 1 # 2)%Q).
Proof. exact ft_nearest. Qed.
Print Assumptions C59_nearest.
(** C59: with steps_per_second times threshold 1 or more, it always drops the fraction. *)
Theorem C59_truncates : forall t sps thr r, (1 <= sps * thr)%Q -> ft_quantize (Num t) (Num sps) (Num thr) = Ok r ->
  exists k, int_part (Qabs (t * sps)) k /\ (((0 <= t * sps)%Q /\ r = k) \/ ((t * sps < 0)%Q /\ r = - k)).
Proof. exact ft_truncates. Qed.
Print Assumptions C59_truncates.
(** C59: later times never get an earlier step. *)
Theorem C59_monotone : forall sps thr t1 t2 r1 r2, (t1 <= t2)%Q ->
  ft_quantize (Num t1) (Num sps) (Num thr) = Ok r1 -> ft_quantize (Num t2) (Num sps) (Num thr) = Ok r2 -> r1 <= r2.
Proof. exact ft_mono. Qed.
Print Assumptions C59_monotone.
Example C59_case : ft_quantize (Num (17 # 10)) (Num 1) (Num (1 # 2)) = Ok 2 /\ ft_quantize (Num (-17 # 10)) (Num 1) (Num (1 # 2)) = Ok (-2) /\
  ft_quantize (Num (7 # 10)) (Num 4) (Num (1 # 2)) = Ok 2 /\ ft_quantize (Num 0) (Num 4) (Num 0) = Ok 1.
Proof. repeat split; reflexivity. Qed.

(** C60: each note becomes the first grid entry at the smallest distance ([lt] is < on distances). *)
Theorem C60_nearest : forall (A D : Type) (lt : D -> D -> bool), orders lt -> forall (metric : A -> A -> D) grid notes, grid <> [] ->
  exists q, vector_quantize lt metric grid notes = Ok q /\ Forall2 (first_nearest lt metric grid) notes q.
Proof. exact vq_ok. Qed.
Print Assumptions C60_nearest.
(** C60: with an empty grid it raises unless there is no note. *)
Theorem C60_empty : forall (A D : Type) (lt : D -> D -> bool) (metric : A -> A -> D) notes,
  vector_quantize lt metric [] notes = match notes with [] => Ok [] | _ => Err ValueError end.
Proof. exact vq_empty. Qed.
Print Assumptions C60_empty.
(** C60: quantising again changes nothing, if only equal points are as near as a point to itself. *)
Theorem C60_idempotent : forall (A D : Type) (lt : D -> D -> bool), orders lt -> forall (metric : A -> A -> D) grid notes q,
  (forall n h, lt (metric n n) (metric n h) = false -> h = n) -> vector_quantize lt metric grid notes = Ok q -> vector_quantize lt metric grid q = Ok q.
Proof. exact vq_idem. Qed.
Print Assumptions C60_idempotent.
Example C60_case : orders Z.ltb /\ vector_quantize Z.ltb (fun a b => Z.abs (a - b)) [0; 4; 8; 4] [1; 2; 7; 6; 100] = Ok [0; 0; 8; 4; 8].
Proof. split; [split; intros; rewrite ?Z.ltb_lt, ?Z.ltb_ge in *; lia|reflexivity]. Qed.

(** C99: without an occupancy threshold the frames are the tightest that cover the event. *)
Theorem C99_cover : forall s e fps occ a b, (occ <= 0)%Q -> frames_from_times s e fps occ = Ok (a, b) ->
  int_part (s * fps) a /\ rounded_up (e * fps) b /\ a < b /\ (0 <= s)%Q /\ (0 <= e)%Q.
Proof. exact frames_cover. Qed.
Print Assumptions C99_cover.
(** C99: it raises exactly for negative times and for events that contain no frame, i.e. when some
    frame boundary is at or after the end and at or before the start. *)
Theorem C99_errors : forall s e fps occ,
  (frames_from_times s e fps occ = Err ValueError <-> (s < 0)%Q \/ (e < 0)%Q \/ exists k, (e * fps <= inject_Z k)%Q /\ (inject_Z k <= s * fps)%Q) /\
  (forall x, frames_from_times s e fps occ = Err x -> x = ValueError).
Proof. exact frames_errors. Qed.
Print Assumptions C99_errors.
(** C99: with a threshold in (0, 1] and at least one frame per second the start moves up by a
    frame exactly if the rest of the first frame lasts less than the threshold; the end always
    moves down, by one or two frames, but never before the start. *)
Theorem C99_occupied : forall s e fps occ a b, (1 <= fps)%Q -> (0 < occ)%Q -> (occ <= 1)%Q -> frames_from_times s e fps occ = Ok (a, b) ->
  exists f c d, int_part (s * fps) f /\ rounded_up (e * fps) c /\ a <= b /\ 0 <= a /\
    (((occ * fps <= inject_Z f + 1 - s * fps)%Q /\ a = f) \/ ((inject_Z f + 1 - s * fps < occ * fps)%Q /\ a = f + 1)) /\
    (((inject_Z c - e * fps <= (1 - occ) * fps)%Q /\ d = c - 1) \/ (((1 - occ) * fps < inject_Z c - e * fps)%Q /\ d = c - 2)) /\
    b = Z.max a d.
Proof. exact frames_occupied. Qed.
Print Assumptions C99_occupied.
Example C99_case : frames_from_times (3 # 2) (7 # 2) 10 0 = Ok (15, 35) /\ frames_from_times (31 # 20) (71 # 20) 10 (1 # 10) = Ok (16, 35) /\ frames_from_times 1 1 10 0 = Err ValueError.
Proof. repeat split; reflexivity. Qed.

(** C100: the result is the nearest multiple (ties to the even multiple) of the step, which lasts
    480*beats/step_size ticks rounded up, at 8*tempo ticks per second; no exception. *)
Theorem C100_multiple : forall t step tempo beats, (0 < step)%Q -> (0 < tempo)%Q -> 0 < beats ->
  exists n m q, quantize_to_nearest_step t step tempo beats = Ok q /\ rounded_up (inject_Z (480 * beats) / step) n /\ 0 < n /\
    nearest_even (t * (8 * tempo) / inject_Z n) m /\ (q * (8 * tempo) == inject_Z (m * n))%Q.
Proof. exact quantize_step. Qed.
Print Assumptions C100_multiple.
(** C100: it moves no time by more than half a step. *)
Theorem C100_error : forall t step tempo beats q n, (0 < step)%Q -> (0 < tempo)%Q -> 0 < beats ->
  quantize_to_nearest_step t step tempo beats = Ok q -> rounded_up (inject_Z (480 * beats) / step) n -> (Qabs (q - t) * (16 * tempo) <= inject_Z n)%Q.
Proof. exact quantize_step_error. Qed.
Print Assumptions C100_error.
(** C100: idempotent. *)
Theorem C100_idempotent : forall t step tempo beats q, (0 < step)%Q -> (0 < tempo)%Q -> 0 < beats ->
  quantize_to_nearest_step t step tempo beats = Ok q -> exists q', quantize_to_nearest_step q step tempo beats = Ok q' /\ (q' == q)%Q.
Proof. exact quantize_step_idem. Qed.
Print Assumptions C100_idempotent.
(** C100: it keeps the order of times. *)
Theorem C100_monotone : forall t1 t2 step tempo beats q1 q2, (0 < step)%Q -> (0 < tempo)%Q -> 0 < beats -> (t1 <= t2)%Q ->
  quantize_to_nearest_step t1 step tempo beats = Ok q1 -> quantize_to_nearest_step t2 step tempo beats = Ok q2 -> (q1 <= q2)%Q.
Proof. exact quantize_step_mono. Qed.
Print Assumptions C100_monotone.
Example C100_case : (exists q, quantize_to_nearest_step (13 # 10) 4 120 4 = Ok q /\ q == 3 # 2)%Q /\ (exists q, quantize_to_nearest_step (13 # 10) 1 120 4 = Ok q /\ q == 2)%Q.
Proof. split; eexists; split; reflexivity. Qed.

(** C101: a note's start and end become multiples of the step, shifted by the remainder of the grid
    for every whole grid before them. *)
Theorem C101_drift : forall s e step grid qs qe, (0 < step)%Q -> (step <= grid)%Q -> quantize_note_to_step_grid s e step grid = Ok (qs, qe) ->
  exists m ks ke, int_part (grid / step) m /\ nearest_even (s / step) ks /\ nearest_even (e / step) ke /\
    (qs == inject_Z ks * step + inject_Z (ks / m) * (grid - inject_Z m * step))%Q /\ (qe == inject_Z ke * step + inject_Z (ke / m) * (grid - inject_Z m * step))%Q.
Proof. exact step_grid_drift. Qed.
Print Assumptions C101_drift.
(** C101: if the grid is a whole number of steps, both times move to the nearest step, by at most
    half a step. *)
Theorem C101_aligned : forall s e step grid n qs qe, (0 < step)%Q -> 0 < n -> (grid == inject_Z n * step)%Q -> quantize_note_to_step_grid s e step grid = Ok (qs, qe) ->
  exists ks ke, nearest_even (s / step) ks /\ nearest_even (e / step) ke /\ (qs == inject_Z ks * step)%Q /\ (qe == inject_Z ke * step)%Q /\
    (Qabs (qs - s) <= step * (1 # 2))%Q /\ (Qabs (qe - e) <= step * (1 # 2))%Q.
Proof. exact step_grid_aligned. Qed.
Print Assumptions C101_aligned.
(** C101: otherwise the error is unbounded: it is bounded exactly if the grid is a whole number of steps. *)
Theorem C101_bounded : forall step grid, (0 < step)%Q -> (step <= grid)%Q ->
  ((exists bound, forall t qs qe, (0 <= t)%Q -> quantize_note_to_step_grid t t step grid = Ok (qs, qe) -> (Qabs (qs - t) <= bound)%Q) <-> exists n, 0 < n /\ (grid == inject_Z n * step)%Q).
Proof. exact step_grid_bounded. Qed.
Print Assumptions C101_bounded.
(** C101: a note never ends before it starts. *)
Theorem C101_order : forall s e step grid qs qe, (0 < step)%Q -> (step <= grid)%Q -> (s <= e)%Q -> quantize_note_to_step_grid s e step grid = Ok (qs, qe) -> (qs <= qe)%Q.
Proof. exact step_grid_mono. Qed.
Print Assumptions C101_order.
(** C101: it raises exactly for negative times (ValueError) and a grid shorter than a step (ZeroDivisionError). *)
Theorem C101_errors : forall s e step grid, (0 < step)%Q -> (0 <= grid)%Q ->
  (quantize_note_to_step_grid s e step grid = Err ValueError <-> (s < 0)%Q \/ (e < 0)%Q) /\
  (quantize_note_to_step_grid s e step grid = Err ZeroDivisionError <-> (0 <= s)%Q /\ (0 <= e)%Q /\ (grid < step)%Q) /\
  (forall x, quantize_note_to_step_grid s e step grid = Err x -> x = ValueError \/ x = ZeroDivisionError).
Proof. exact step_grid_errors. Qed.
Print Assumptions C101_errors.
Example C101_case : (exists a b, quantize_note_to_step_grid (16 # 10) (37 # 10) (1 # 2) 2 = Ok (a, b) /\ a == 3 # 2 /\ b == 7 # 2)%Q /\
  (exists a b, quantize_note_to_step_grid 4 8 2 3 = Ok (a, b) /\ a == 6 /\ b == 12)%Q.
Proof. split; do 2 eexists; repeat split; reflexivity. Qed.

(** C102: interpolates_quantize adds the whole grids before a time, in seconds, and the remaining
    steps, in ticks: for a grid of n steps its start exceeds the nearest step's time by
    (k mod n)(step - step/ticks_per_second). *)
Theorem C102_offset : forall s e step grid tempo n qs qe, (0 < step)%Q -> (0 < tempo)%Q -> 0 < n -> (grid * (8 * tempo) == inject_Z n * step)%Q ->
  interpolates_quantize s e step grid tempo = Ok (qs, qe) ->
  exists ks, nearest_even (s * (8 * tempo) / step) ks /\ (qs - inject_Z ks * step / (8 * tempo) == inject_Z (ks mod n) * (step - step / (8 * tempo)))%Q.
Proof. exact interpolates_offset. Qed.
Print Assumptions C102_offset.
(** C102: both times are computed alike, for all times, without an exception. *)
Theorem C102_value : forall s e step grid tempo n, (0 < step)%Q -> (0 < tempo)%Q -> 0 < n -> (grid * (8 * tempo) == inject_Z n * step)%Q ->
  exists ks ke qs qe, nearest_even (s * (8 * tempo) / step) ks /\ nearest_even (e * (8 * tempo) / step) ke /\ interpolates_quantize s e step grid tempo = Ok (qs, qe) /\
    (qs == inject_Z (ks / n) * grid + inject_Z (ks mod n) * step)%Q /\ (qe == inject_Z (ke / n) * grid + inject_Z (ke mod n) * step)%Q.
Proof. exact interpolates_ok. Qed.
Print Assumptions C102_value.
(** C102: quantize_and_snap_to_grid never returns. *)
Theorem C102_snap : forall (A : Type) (notes : list A) g, quantize_and_snap_to_grid notes g = Err (match notes with [] => ValueError | _ => NameError end).
Proof. intros A [|n r] g; reflexivity. Qed.
Print Assumptions C102_snap.
Example C102_case : (exists a b, interpolates_quantize (1 # 4) (1 # 2) 120 (1 # 2) 120 = Ok (a, b) /\ a == 240 /\ b == 1 # 2)%Q.
Proof. do 2 eexists; repeat split; reflexivity. Qed.

(** C103: the alternative quantiser returns the integer nearest to the steps minus the threshold,
    ties away from zero. *)
Theorem C103_nearest : forall t sps thr, nearest_away (t * sps - thr) (quantize_to_nearest_step_alt t sps thr).
Proof. intros. apply half_up_nearest. Qed.
Print Assumptions C103_nearest.
(** C103: with threshold 1/2 it drops the fraction of every positive number of steps. *)
Theorem C103_positive : forall t sps, (0 < t * sps)%Q -> int_part (t * sps) (quantize_to_nearest_step_alt t sps (1 # 2)).
Proof. exact alt_half. Qed.
Print Assumptions C103_positive.
(** C103: with threshold 1/2 time 0 gets step -1. *)
Theorem C103_zero : forall t sps, (t * sps == 0)%Q -> quantize_to_nearest_step_alt t sps (1 # 2) = -1.
Proof. exact alt_zero. Qed.
Print Assumptions C103_zero.
Example C103_case : quantize_to_nearest_step_alt (17 # 10) 2 (1 # 2) = 3 /\ quantize_to_nearest_step_alt (5 # 2) 1 0 = 3 /\ quantize_to_nearest_step_alt (-5 # 2) 1 0 = -3.
Proof. repeat split; reflexivity. Qed.

(** C104: the tempo conversions agree with each other; converting bpm to qpm and back multiplies by d*d/60. *)
Theorem C104_agree : forall spq qpm bpm d beats, ~ (d == 0)%Q ->
  (steps_per_second_from_bpm bpm spq * 60 == bpm * spq)%Q /\
  (from_bpm_spq_to_sps spq bpm d == from_spq_to_sps spq (bpm / d))%Q /\
  (from_bpm_spq_to_sps spq (qpm_to_bpm qpm d) d == from_spq_to_sps spq qpm)%Q /\
  (from_spq_to_sps spq bpm == steps_per_second_from_bpm bpm spq)%Q /\
  (bpm_to_qpm bpm beats == from_spq_to_sps beats bpm)%Q /\
  (qpm_to_bpm (bpm_to_qpm bpm d) d == bpm * (d * d / 60))%Q.
Proof. exact tempo_parts. Qed.
Print Assumptions C104_agree.
(** C104: the rounded version differs from the plain one by at most half of 10^-10. *)
Theorem C104_rounded : forall bpm beats, (Qabs (bpm_to_qpm_np bpm beats - bpm_to_qpm bpm beats) * 20000000000 <= 1)%Q.
Proof. exact tempo_round. Qed.
Print Assumptions C104_rounded.
Example C104_case : (steps_per_second_from_bpm 120 480 == 960)%Q /\ (from_bpm_spq_to_sps 480 120 4 == 240)%Q /\ (bpm_to_qpm_np 100 1 == 16666666667 # 10000000000)%Q.
Proof. repeat split; reflexivity. Qed.
