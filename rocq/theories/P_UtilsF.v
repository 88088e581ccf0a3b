(** C213: the stand-alone quantisers in double precision. *)
From Coq Require Import QArith Qabs Qround Lia Lqa Psatz.
From Verif Require Import PyBase L_Base M_Note L_Note M_Events M_Float S_Graph S_Rounding S_ShiftF L_Float L_ShiftF L_NoteF L_NoteF2 L_Chord L_Snap M_Utils S_Utils L_Utils L_Utils2 L_Utils3 M_UtilsF S_UtilsF L_UtilsF L_UtilsF2 L_UtilsF3 L_UtilsF4.
Open Scope Z_scope.

Lemma ok_pair : forall (A B : Type) (a c : A) (b d : B), Ok (a, b) = Ok (c, d) -> c = a /\ d = b.
Proof. intros A B a c b d H. injection H as -> ->. auto. Qed.

(** C213: without an occupancy threshold frames_from_times returns the tightest frames that cover the event whose
    ends in frames are rounded to doubles. *)
Theorem C213_frames : forall s e fps occ a b, (occ <= 0)%Q -> frames_from_times_f s e fps occ = Ok (a, b) ->
  exists x y, rounded (s * fps) x /\ rounded (e * fps) y /\ int_part x a /\ rounded_up y b /\ a < b /\ (0 <= s)%Q /\ (0 <= e)%Q.
Proof.
  intros s e fps occ a b O H. destruct (frames_f_cover s e fps occ a b O H) as [A [B [C [D E]]]].
  exists (fl (s * fps)), (fl (e * fps)). split; [apply fl_rounded|]. split; [apply fl_rounded|]. auto.
Qed.
Print Assumptions C213_frames.
(** C213: it is the exact answer unless an end, in frames, is as near to a whole number as its rounding. *)
Theorem C213_frames_agree : forall s e fps occ, (occ <= 0)%Q -> (0 < fps)%Q ->
  (forall k, (s * fps / inject_Z (2 ^ 53) < Qabs (s * fps - inject_Z k))%Q) -> (forall k, (e * fps / inject_Z (2 ^ 53) < Qabs (e * fps - inject_Z k))%Q) ->
  frames_from_times_f s e fps occ = frames_from_times s e fps occ.
Proof.
  intros s e fps occ O F C1 C2. assert (Z1 : (/ inject_Z (2 ^ 53) == u)%Q) by reflexivity. unfold Qdiv in C1, C2.
  apply frames_f_agree; [auto|auto|intros k; rewrite <- Z1; apply C1|intros k; rewrite <- Z1; apply C2].
Qed.
Print Assumptions C213_frames_agree.
(** C213: it raises only ValueError, for a negative time or when the rounded ends contain no frame; never for an
    event longer than 2^-53 times the sum of its ends. *)
Theorem C213_frames_errors : forall s e fps occ, (0 < fps)%Q ->
  (forall x, frames_from_times_f s e fps occ = Err x -> x = ValueError) /\
  ((s < 0)%Q \/ (e < 0)%Q -> frames_from_times_f s e fps occ = Err ValueError) /\
  ((0 <= s)%Q -> (s + e < inject_Z (2 ^ 53) * (e - s))%Q -> exists a b, frames_from_times_f s e fps occ = Ok (a, b)) /\
  ((0 <= s)%Q -> (0 <= e)%Q -> frames_from_times_f s e fps occ = Err ValueError ->
     exists k x y, rounded (s * fps) x /\ rounded (e * fps) y /\ (y <= inject_Z k)%Q /\ (inject_Z k <= x)%Q).
Proof.
  intros s e fps occ F. destruct (frames_f_errors s e fps occ) as [E1 E2]. split; [exact E2|]. split; [intros [X|X]; apply E1; auto|].
  split; [intros A B; apply frames_f_gap; auto|]. intros A B H. destruct (proj1 E1 H) as [X|[X|[k [K1 K2]]]]; [lra|lra|].
  exists k, (fl (s * fps)), (fl (e * fps)). split; [apply fl_rounded|]. split; [apply fl_rounded|]. auto.
Qed.
Print Assumptions C213_frames_errors.
Example C213_case_frames : frames_from_times_f (3 # 2) (7 # 2) 10 0 = Ok (15, 35) /\ frames_from_times_f (fl (1 # 3)) (fl (1 # 3) + (1 # 2 ^ 54)) 3 0 = Err ValueError /\
  frames_from_times (fl (1 # 3)) (fl (1 # 3) + (1 # 2 ^ 54)) 3 0 <> Err ValueError.
Proof. split; [vm_compute; reflexivity|]. split; [vm_compute; reflexivity|]. vm_compute. discriminate. Qed.
(** C213: the time span of frame k, computed as k/fps to (k+1)/fps, can be given one frame more on either side but
    nothing else; exactly its frame if fps is a power of two. *)
Theorem C213_frame_bounds : forall k fps, 0 <= k < 2 ^ 49 - 1 -> 0 < fps ->
  exists a b, frames_from_times_f (fl (inject_Z k / inject_Z fps)) (fl (inject_Z (k + 1) / inject_Z fps)) (inject_Z fps) 0 = Ok (a, b) /\ (a = k \/ a = k - 1) /\ (b = k + 1 \/ b = k + 2).
Proof. exact frames_f_own. Qed.
Print Assumptions C213_frame_bounds.
Theorem C213_frame_bounds_pow2 : forall k j, 0 <= k < 2 ^ 53 -> 0 <= j ->
  frames_from_times_f (fl (inject_Z k / inject_Z (2 ^ j))) (fl (inject_Z (k + 1) / inject_Z (2 ^ j))) (inject_Z (2 ^ j)) 0 = Ok (k, k + 1).
Proof. exact frames_f_pow2. Qed.
Print Assumptions C213_frame_bounds_pow2.
Example C213_case_bounds : frames_from_times_f (fl (29 # 100)) (fl (30 # 100)) 100 0 = Ok (28, 30).
Proof. vm_compute. reflexivity. Qed.
(** C213: with a threshold between 2^-50 and 1 and at least one frame per second the start moves by none or one
    frame, decided by the occupancy of the first frame unless that is within 2^-48 of the threshold; the end moves
    down by one or two frames, but not before the start. *)
Theorem C213_occupied : forall s e fps occ a b, (1 <= fps)%Q -> (1 # 2 ^ 50 <= occ)%Q -> (occ <= 1)%Q -> frames_from_times_f s e fps occ = Ok (a, b) ->
  exists x y f c d, rounded (s * fps) x /\ rounded (e * fps) y /\ int_part x f /\ rounded_up y c /\ f < c /\ (a = f \/ a = f + 1) /\ (d = c - 1 \/ d = c - 2) /\ b = Z.max a d /\
    (((occ + (1 # 2 ^ 48)) * fps <= inject_Z f + 1 - x)%Q -> a = f) /\ ((inject_Z f + 1 - x <= (occ - (1 # 2 ^ 48)) * fps)%Q -> a = f + 1) /\
    ((inject_Z c - y <= (1 - occ - (1 # 2 ^ 48)) * fps)%Q -> d = c - 1) /\ (((1 - occ + (1 # 2 ^ 48)) * fps <= inject_Z c - y)%Q -> d = c - 2).
Proof.
  intros s e fps occ a b F O1 O2 H. destruct (frames_f_occupied s e fps occ a b F O1 O2 H) as [f [c [d X]]].
  exists (fl (s * fps)), (fl (e * fps)), f, c, d. split; [apply fl_rounded|]. split; [apply fl_rounded|]. exact X.
Qed.
Print Assumptions C213_occupied.
(** C213: with a smaller threshold the start can even move to an earlier frame, which it never does in exact
    arithmetic. *)
Example C213_case_occupied : frames_from_times_f 5 7 1 (1 # 2 ^ 60) = Ok (4, 6) /\ frames_from_times 5 7 1 (1 # 2 ^ 60) = Ok (5, 6) /\
  frames_from_times_f (fl (31 # 20)) (fl (71 # 20)) 10 (fl (1 # 10)) = Ok (16, 35).
Proof. split; [vm_compute; reflexivity|]. split; [vm_compute; reflexivity|]. vm_compute. reflexivity. Qed.

(** C213: ft_quantize_to_nearest_step rounds the rounded number of steps at the rounded threshold. *)
Theorem C213_threshold : forall t sps thr, (0 < sps)%Q -> (0 <= thr)%Q -> (thr < 1)%Q ->
  exists r x th, ft_quantize_f t sps thr = Ok r /\ rounded (t * sps) x /\ rounded (sps * thr) th /\ rounded_at th x r.
Proof.
  intros t sps thr A B C. destruct (ft_f_ok t sps thr A B C) as [r [R X]]. exists r, (fl (t * sps)), (fl (sps * thr)). split; [exact R|]. split; [apply fl_rounded|]. split; [apply fl_rounded|exact X].
Qed.
Print Assumptions C213_threshold.
(** C213: it keeps the order of times, is within one step of the number of steps up to rounding, and raises
    ValueError exactly as in exact arithmetic. *)
Theorem C213_threshold_order : forall t1 t2 sps thr r1 r2, (t1 <= t2)%Q -> ft_quantize_f t1 sps thr = Ok r1 -> ft_quantize_f t2 sps thr = Ok r2 -> r1 <= r2.
Proof.
  intros t1 t2 sps thr r1 r2 L H1 H2. destruct (ft_f_is _ _ _ _ H1) as [A [B X1]]. destruct (ft_f_is _ _ _ _ H2) as [_ [_ X2]].
  eapply rounded_mono; [|  |exact X1|exact X2]; [apply fl_nonneg, Qmult_le_0_compat; lra|apply fl_mono, Qmult_le_compat_r; lra].
Qed.
Print Assumptions C213_threshold_order.
Theorem C213_threshold_near : forall t sps thr r, ft_quantize_f t sps thr = Ok r -> (Qabs (inject_Z r - t * sps) <= 1 + Qabs (t * sps) / inject_Z (2 ^ 53))%Q.
Proof.
  intros t sps thr r H. destruct (ft_f_is _ _ _ _ H) as [A [B X]]. apply rounded_near in X; [|apply fl_nonneg, Qmult_le_0_compat; lra]. pose proof (fl_rounded (t * sps)) as R. unfold rounded in R.
  setoid_replace (inject_Z r - t * sps)%Q with ((inject_Z r - fl (t * sps)) + (fl (t * sps) - t * sps))%Q by ring. eapply Qle_trans; [apply Qabs_triangle|]. lra.
Qed.
Print Assumptions C213_threshold_near.
Theorem C213_threshold_errors : forall t sps thr x, ft_quantize_f t sps thr = Err x <-> x = ValueError /\ ((sps <= 0)%Q \/ (thr < 0)%Q \/ (1 <= thr)%Q).
Proof. exact ft_f_errors. Qed.
Print Assumptions C213_threshold_errors.
Example C213_case_threshold : ft_quantize_f (fl (3 # 10)) 16 (1 # 2) = Ok 4 /\ ft_quantize_f (fl (29 # 100)) 100 0 = Ok 29 /\ ft_quantize_f (fl (-17 # 10)) 1 (1 # 2) = Ok (-2).
Proof. split; [vm_compute; reflexivity|]. split; vm_compute; reflexivity. Qed.

(** C213: quantize_to_nearest_step succeeds for a positive step size, tempo and number of beats, moves a time by at
    most half a step of n/(8 tempo) seconds plus 2^-47 of the time and the step, n the rounded up number of ticks. *)
Theorem C213_step : forall t step tempo beats, (0 <= t)%Q -> (0 < step)%Q -> (0 < tempo)%Q -> 0 < beats -> 480 * beats <= 2 ^ 53 ->
  exists p n q, quantize_to_nearest_step_f t step tempo beats = Ok q /\ rounded (inject_Z (480 * beats) / step) p /\ rounded_up p n /\ 0 < n /\
    (Qabs (q - t) <= inject_Z n / (8 * tempo) * (1 # 2) + (t + inject_Z n / (8 * tempo)) * (1 # 2 ^ 47))%Q.
Proof.
  intros t step tempo beats A S T B BB. destruct (step_f_shape step beats S B BB) as [n [N [U H]]].
  exists (fl (inject_Z (480 * beats) / step)), n, (time_of (step_at t tempo n) n tempo). split; [apply H; auto|]. split; [apply fl_rounded|]. split; [exact U|]. split; [exact N|].
  apply step_f_error; auto.
Qed.
Print Assumptions C213_step.
(** C213: it keeps the order of all times, and is idempotent for the first 2^48 ticks. *)
Theorem C213_step_order : forall t1 t2 step tempo beats q1 q2, (0 < step)%Q -> (0 < tempo)%Q -> 0 < beats -> 480 * beats <= 2 ^ 53 -> (t1 <= t2)%Q ->
  quantize_to_nearest_step_f t1 step tempo beats = Ok q1 -> quantize_to_nearest_step_f t2 step tempo beats = Ok q2 -> (q1 <= q2)%Q.
Proof.
  intros t1 t2 step tempo beats q1 q2 S T B BB L H1 H2. destruct (step_f_shape step beats S B BB) as [n [N [U H]]]. rewrite H in H1, H2 by auto. apply Ok_inj in H1, H2. subst q1 q2.
  apply time_of_mono; auto. apply step_at_mono; auto.
Qed.
Print Assumptions C213_step_order.
Theorem C213_step_idempotent : forall t step tempo beats q, (0 <= t)%Q -> (0 < step)%Q -> (0 < tempo)%Q -> 0 < beats -> 480 * beats <= 2 ^ 53 -> (t * (8 * tempo) <= inject_Z (2 ^ 48))%Q ->
  quantize_to_nearest_step_f t step tempo beats = Ok q -> quantize_to_nearest_step_f q step tempo beats = Ok q.
Proof.
  intros t step tempo beats q A S T B BB L H1. destruct (step_f_shape step beats S B BB) as [n [N [U H]]]. rewrite H in * by auto. apply Ok_inj in H1. subst q. rewrite step_f_idem by auto. reflexivity.
Qed.
Print Assumptions C213_step_idempotent.
Example C213_case_step : exists q, quantize_to_nearest_step_f (fl (13 # 10)) 3 (fl (1001 # 10)) 4 = Ok q /\ q = fl (inject_Z (2 * 640) / fl (8 * fl (1001 # 10))) /\ quantize_to_nearest_step_f q 3 (fl (1001 # 10)) 4 = Ok q.
Proof. eexists. split; [vm_compute; reflexivity|]. split; vm_compute; reflexivity. Qed.

(** C213: quantize_note_to_step_grid keeps the start before the end for the first 2^48 steps. *)
Theorem C213_grid_order : forall s e step grid qs qe, (0 < step)%Q -> (step <= grid)%Q -> (s <= e)%Q -> (e <= inject_Z (2 ^ 48) * step)%Q ->
  quantize_note_to_step_grid_f s e step grid = Ok (qs, qe) -> (qs <= qe)%Q.
Proof.
  intros s e step grid qs qe S G L B H. assert (A : (0 <= s)%Q) by (apply Qnot_lt_le; intros X; rewrite grid_f_neg in H by auto; discriminate).
  destruct (grid_f_ok s e step grid A ltac:(lra) S G) as [m [I [M R]]]. rewrite R in H. apply ok_pair in H. destruct H as [-> ->].
  apply on_grid_f_mono; auto.
  - split; [apply rhe_div_nonneg; auto|]. apply rhe_mono, fl_mono. unfold Qdiv. apply Qmul_le; [apply Qlt_le_weak, Qinv_lt_0_compat; auto|auto].
  - apply rhe_le_Z. apply (fl_le_Z _ (2 ^ 49)); [lia|]. apply Qle_trans with (inject_Z (2 ^ 48)); [apply Qle_shift_div_r; auto|]. discriminate.
Qed.
Print Assumptions C213_grid_order.
(** C213: it raises for negative times and for a grid shorter than a step, and for nothing else when the grid is as
    long as the step. *)
Theorem C213_grid_errors : forall s e step grid, (0 < step)%Q -> (0 <= grid)%Q ->
  ((s < 0)%Q \/ (e < 0)%Q -> quantize_note_to_step_grid_f s e step grid = Err ValueError) /\
  ((0 <= s)%Q -> (0 <= e)%Q -> (grid <= step * (1 - (1 # 2 ^ 53)))%Q -> quantize_note_to_step_grid_f s e step grid = Err ZeroDivisionError) /\
  ((0 <= s)%Q -> (0 <= e)%Q -> (step <= grid)%Q -> exists qs qe, quantize_note_to_step_grid_f s e step grid = Ok (qs, qe)).
Proof.
  intros s e step grid S G. split; [apply grid_f_neg|]. split; [intros A B C; apply grid_f_zero; auto|]. intros A B C. destruct (grid_f_ok s e step grid A B S C) as [m [_ [_ R]]]. eauto.
Qed.
Print Assumptions C213_grid_errors.
(** C213: for a grid of n steps, both given as the doubles nearest to their lengths, either every time goes to its
    nearest step up to rounding, or every n-1 steps before it push it one step further. *)
Theorem C213_grid_steps : forall len n, (0 < len)%Q -> 1 < n <= 2 ^ 49 ->
  exists m, (m = n \/ m = n - 1) /\ forall s e, (0 <= s)%Q -> (0 <= e)%Q ->
    exists qs qe, quantize_note_to_step_grid_f s e (fl len) (fl (inject_Z n * len)) = Ok (qs, qe) /\ landed m n (fl len) s qs /\ landed m n (fl len) e qe.
Proof.
  intros len n L N. assert (F0 := fl_gt0 len L). assert (N1 : (1 <= inject_Z n)%Q) by (change 1%Q with (inject_Z 1); rewrite <- Zle_Qle; lia).
  assert (G : (fl len <= fl (inject_Z n * len))%Q). { apply fl_mono. setoid_replace len with (1 * len)%Q at 1 by ring. apply Qmul_le; lra. }
  set (m := Qfloor (fl (fl (inject_Z n * len) / fl len))). assert (MN : m = n \/ m = n - 1) by (apply grid_steps; [auto|lia]).
  exists m. split; [exact MN|]. intros s e A B. destruct (grid_f_ok s e _ _ A B F0 G) as [m' [I [M R]]].
  assert (m' = m) by (eapply int_part_unique; [reflexivity|exact I|apply int_part_floor]). subst m'. clearbody m.
  eexists _, _. split; [exact R|]. split; apply on_grid_landed; auto; lia.
Qed.
Print Assumptions C213_grid_steps.
(** C213: three steps of 0.1 s in a grid of 0.3 s count as two: a note at 30 s is moved to 45 s.  Four steps of 0.1 s
    in a grid of 0.4 s are four. *)
Example C213_case_grid : (exists q, quantize_note_to_step_grid_f 30 31 (fl (1 # 10)) (fl (3 # 10)) = Ok (45%Q, q)) /\
  (exists q, quantize_note_to_step_grid_f 30 31 (fl (1 # 10)) (fl (4 # 10)) = Ok (30%Q, q)).
Proof. split; eexists; vm_compute; reflexivity. Qed.
(** C213: check_quantization accepts exactly the quantised start and end; the examples of check_grid_quantization
    all pass. *)
Theorem C213_check : forall s e step grid es ee, check_quantization_f s e step grid es ee = Ok tt <->
  exists qs qe, quantize_note_to_step_grid_f s e step grid = Ok (qs, qe) /\ (qs == es)%Q /\ (qe == ee)%Q.
Proof.
  intros s e step grid es ee. unfold check_quantization_f. destruct (quantize_note_to_step_grid_f s e step grid) as [[qs qe]|x].
  - split.
    + destruct (Qeq_bool qs es) eqn:A; [|discriminate]. destruct (Qeq_bool qe ee) eqn:B; [|discriminate]. intros _. exists qs, qe. split; [reflexivity|]. split; apply Qeq_bool_iff; auto.
    + intros [qs' [qe' [H [A B]]]]. apply ok_pair in H. destruct H as [-> ->]. apply Qeq_bool_iff in A, B. rewrite A, B. reflexivity.
  - split; [discriminate|]. intros [qs [qe [H _]]]. discriminate.
Qed.
Print Assumptions C213_check.
Example C213_case_check : check_grid_quantization_f = Ok tt.
Proof. vm_compute. reflexivity. Qed.
