From Coq Require Import QArith Qabs Qround Lia Lqa.
From Verif Require Import PyBase L_Base M_Note L_Note L_Note2 M_Events M_Chord S_Graph L_Chord L_Graph5 L_Transforms M_Utils S_Utils L_Utils.
Open Scope Z_scope.

Lemma ceil_up : forall x, rounded_up x (Qceiling x).
Proof. intro x. destruct (Qceiling_bounds x). split; auto. Qed.
Lemma up_unique : forall x y a b, (x == y)%Q -> rounded_up x a -> rounded_up y b -> a = b.
Proof.
  intros x y a b E [A1 A2] [B1 B2]. assert (X : a < b + 1) by (rewrite Zlt_Qlt; inj; lra). assert (Y : b < a + 1) by (rewrite Zlt_Qlt; inj; lra). lia.
Qed.

(* frames *)
Lemma frames_errors : forall s e fps occ,
  (frames_from_times s e fps occ = Err ValueError <-> (s < 0)%Q \/ (e < 0)%Q \/ exists k, (e * fps <= inject_Z k)%Q /\ (inject_Z k <= s * fps)%Q) /\
  (forall x, frames_from_times s e fps occ = Err x -> x = ValueError).
Proof.
  intros s e fps occ. unfold frames_from_times.
  destruct (Qltb s 0) eqn:A; [apply Qltb_lt in A; cbn [orb]; split; [split; auto|intros x H; congruence]|apply Qltb_ge in A].
  destruct (Qltb e 0) eqn:B; [apply Qltb_lt in B; cbn [orb]; split; [split; auto|intros x H; congruence]|apply Qltb_ge in B]. cbn [orb]. cbv zeta.
  destruct (Qfloor_bounds (s * fps)) as [F1 F2]. destruct (Qceiling_bounds (e * fps)) as [G1 G2].
  set (f := Qfloor (s * fps)) in *. set (c := Qceiling (e * fps)) in *.
  destruct (Z.leb_spec c f) as [L|L].
  - split; [|intros x H; congruence]. split; [intros _; right; right; exists f|auto]. rewrite Zle_Qle in L. split; lra.
  - split.
    + split; [destruct (Qltb 0 occ); discriminate|]. intros [X|[X|[k [K1 K2]]]]; [exfalso; lra|exfalso; lra|].
      assert (k < f + 1) by (rewrite Zlt_Qlt; inj; lra). assert (c < k + 1) by (rewrite Zlt_Qlt; inj; lra). lia.
    + intros x. destruct (Qltb 0 occ); discriminate.
Qed.
Lemma frames_cover : forall s e fps occ a b, (occ <= 0)%Q -> frames_from_times s e fps occ = Ok (a, b) ->
  int_part (s * fps) a /\ rounded_up (e * fps) b /\ a < b /\ (0 <= s)%Q /\ (0 <= e)%Q.
Proof.
  intros s e fps occ a b O H. unfold frames_from_times in H.
  destruct (Qltb s 0) eqn:A; [discriminate|apply Qltb_ge in A]. destruct (Qltb e 0) eqn:B; [discriminate|apply Qltb_ge in B]. cbn [orb] in H. cbv zeta in H.
  destruct (Z.leb_spec (Qceiling (e * fps)) (Qfloor (s * fps))) as [L|L]; [discriminate|].
  destruct (Qltb 0 occ) eqn:D; [apply Qltb_lt in D; lra|]. apply Ok_inj in H. apply (f_equal fst) in H as HA. apply (f_equal snd) in H as HB. cbn [fst snd] in HA, HB. subst a b.
  split; [apply int_part_floor|]. split; [apply ceil_up|]. auto.
Qed.
Lemma frames_occupied : forall s e fps occ a b, (1 <= fps)%Q -> (0 < occ)%Q -> (occ <= 1)%Q -> frames_from_times s e fps occ = Ok (a, b) ->
  exists f c d, int_part (s * fps) f /\ rounded_up (e * fps) c /\ a <= b /\ 0 <= a /\
    (((occ * fps <= inject_Z f + 1 - s * fps)%Q /\ a = f) \/ ((inject_Z f + 1 - s * fps < occ * fps)%Q /\ a = f + 1)) /\
    (((inject_Z c - e * fps <= (1 - occ) * fps)%Q /\ d = c - 1) \/ (((1 - occ) * fps < inject_Z c - e * fps)%Q /\ d = c - 2)) /\
    b = Z.max a d.
Proof.
  intros s e fps occ a b P O1 O2 H. unfold frames_from_times in H.
  destruct (Qltb s 0) eqn:A; [discriminate|apply Qltb_ge in A]. destruct (Qltb e 0) eqn:B; [discriminate|apply Qltb_ge in B]. cbn [orb] in H. cbv zeta in H.
  destruct (Z.leb_spec (Qceiling (e * fps)) (Qfloor (s * fps))) as [L|L]; [discriminate|].
  destruct (Qltb 0 occ) eqn:D; [|apply Qltb_ge in D; lra]. apply Ok_inj in H. apply (f_equal fst) in H as HA. apply (f_equal snd) in H as HB. cbn [fst snd] in HA, HB. clear H. subst a b.
  destruct (int_part_floor (s * fps)) as [F1 F2]. destruct (ceil_up (e * fps)) as [G1 G2].
  set (f := Qfloor (s * fps)) in *. set (c := Qceiling (e * fps)) in *.
  clearbody f c. assert (SP : (0 <= s * fps)%Q) by (apply Qmult_le_0_compat; lra).
  assert (F0 : 0 <= f). { assert (-1 < f) by (rewrite Zlt_Qlt; inj; clear - F2 SP; lra). lia. }
  set (so := ((inject_Z f + 1 - s * fps) / fps)%Q). set (eo := ((e * fps - inject_Z c) / fps)%Q).
  assert (SO : (so * fps == inject_Z f + 1 - s * fps)%Q) by (unfold so; field; lra).
  assert (EO : (eo * fps == e * fps - inject_Z c)%Q) by (unfold eo; field; lra).
  clearbody so eo.
  destruct (ceil_up (occ - so)) as [H1 H2]. destruct (ceil_up (occ - eo)) as [K1 K2].
  set (x := Qceiling (occ - so)) in *. set (y := Qceiling (occ - eo)) in *. clearbody x y.
  assert (S1 : (0 < so)%Q) by nra. assert (S2 : (so <= 1)%Q) by nra. assert (E1 : (eo <= 0)%Q) by nra. assert (E2 : (-1 < eo)%Q) by nra.
  assert (X0 : 0 <= x). { assert (-1 < x) by (rewrite Zlt_Qlt; inj; lra). lia. }
  exists f, c, (c - y). split; [split; lra|]. split; [split; lra|]. split; [lia|]. split; [lia|].
  split; [|split; [|lia]].
  - destruct (Qlt_le_dec so occ) as [Z1|Z1].
    + right. split; [nra|]. assert (0 < x) by (rewrite Zlt_Qlt; inj; lra). assert (x < 2) by (rewrite Zlt_Qlt; change (inject_Z 2) with 2%Q; lra). lia.
    + left. split; [nra|]. assert (x < 1) by (rewrite Zlt_Qlt; inj; lra). lia.
  - assert (0 < y) by (rewrite Zlt_Qlt; inj; lra). destruct (Qlt_le_dec 1 (occ - eo)) as [Z1|Z1].
    + right. split; [nra|]. assert (1 < y) by (rewrite Zlt_Qlt; inj; lra). assert (y < 3) by (rewrite Zlt_Qlt; change (inject_Z 3) with 3%Q; lra). lia.
    + left. split; [nra|]. assert (y < 2) by (rewrite Zlt_Qlt; change (inject_Z 2) with 2%Q; lra). lia.
Qed.

(* nearest step in beats *)
Lemma nearest_exact : forall x k, (x == inject_Z k)%Q -> round_half_even x = k.
Proof.
  intros x k E. apply (nearest_unique x x); [reflexivity|apply round_nearest|]. split.
  - assert (Z0 : (x - inject_Z k == 0)%Q) by lra. rewrite Z0. discriminate.
  - assert (Z0 : (x - inject_Z k == 0)%Q) by lra. rewrite Z0. intros. discriminate.
Qed.
Lemma nearest_mono : forall x y a b, (x <= y)%Q -> nearest_even x a -> nearest_even y b -> a <= b.
Proof.
  intros x y a b L [A1 A2] [B1 B2]. destruct (Z.le_gt_cases a b) as [|G]; auto. exfalso.
  assert (G' : b + 1 <= a) by lia. rewrite Zle_Qle in G'. inj. apply Qabs_Qle_condition in A1 as A1'. apply Qabs_Qle_condition in B1 as B1'.
  assert (E : (x == y)%Q) by lra. assert (a = b) by (eapply nearest_unique; [exact E|split; eauto|split; eauto]). lia.
Qed.
Lemma quantize_step : forall t step tempo beats, (0 < step)%Q -> (0 < tempo)%Q -> 0 < beats ->
  exists n m q, quantize_to_nearest_step t step tempo beats = Ok q /\ rounded_up (inject_Z (480 * beats) / step) n /\ 0 < n /\
    nearest_even (t * (8 * tempo) / inject_Z n) m /\ (q * (8 * tempo) == inject_Z (m * n))%Q.
Proof.
  intros t step tempo beats S T B. unfold quantize_to_nearest_step. destruct (Qeq_bool step 0) eqn:E0; [apply Qeq_bool_iff in E0; lra|]. cbv zeta.
  set (per := (inject_Z (480 * beats) / step)%Q).
  assert (N : (if Qeq_bool step 1 then Qfloor per else Qceiling per) = Qceiling per).
  { destruct (Qeq_bool step 1) eqn:E1; auto. apply Qeq_bool_iff in E1. assert (E : (per == inject_Z (480 * beats))%Q) by (unfold per; rewrite E1; field).
    rewrite (Qfloor_comp _ _ E), (Qceiling_comp _ _ E), Qfloor_Z, Qceiling_Z. reflexivity. }
  rewrite N. destruct (ceil_up per) as [C1 C2]. set (n := Qceiling per) in *.
  assert (PP : (0 < per)%Q). { unfold per. apply Qlt_shift_div_l; auto. ring_simplify. change 0%Q with (inject_Z 0). rewrite <- Zlt_Qlt. lia. }
  assert (N0 : 0 < n) by (rewrite Zlt_Qlt; inj; lra).
  destruct (Z.eqb_spec n 0); [lia|].
  assert (TP : (inject_Z 480 * tempo / 60 == 8 * tempo)%Q) by (change (inject_Z 480) with 480%Q; field).
  destruct (Qeq_bool (inject_Z 480 * tempo / 60) 0) eqn:E2; [apply Qeq_bool_iff in E2; rewrite TP in E2; lra|].
  set (m := round_half_even (t * (inject_Z 480 * tempo / 60) / inject_Z n)).
  assert (AS : negb ((round_half_even (inject_Z (m * n) / inject_Z 480) * 480) mod 480 =? 0) = false) by (rewrite Z.mod_mul by lia; reflexivity).
  rewrite AS. exists n, m, (inject_Z (m * n) / (inject_Z 480 * tempo / 60))%Q.
  split; [destruct (Qeq_bool step 1); reflexivity|]. split; [split; auto|]. split; auto. split.
  - assert (X : (t * (inject_Z 480 * tempo / 60) / inject_Z n == t * (8 * tempo) / inject_Z n)%Q) by (rewrite TP; reflexivity).
    pose proof (round_nearest (t * (inject_Z 480 * tempo / 60) / inject_Z n)) as [R1 R2]. fold m in R1, R2. split; [rewrite <- X; auto|rewrite <- X; auto].
  - rewrite TP. field. lra.
Qed.
Lemma quantize_step_error : forall t step tempo beats q n, (0 < step)%Q -> (0 < tempo)%Q -> 0 < beats ->
  quantize_to_nearest_step t step tempo beats = Ok q -> rounded_up (inject_Z (480 * beats) / step) n -> (Qabs (q - t) * (16 * tempo) <= inject_Z n)%Q.
Proof.
  intros t step tempo beats q n S T B H U. destruct (quantize_step t step tempo beats S T B) as [n' [m [q' [E [U' [N [M Q]]]]]]].
  rewrite E in H. apply Ok_inj in H. subst q'. assert (n' = n) by (eapply up_unique; [reflexivity|eauto|eauto]). subst n'.
  destruct M as [M _]. apply Qabs_Qle_condition in M. rewrite inject_Z_mult in Q. rewrite Zlt_Qlt in N. inj.
  set (nn := inject_Z n) in *. set (mm := inject_Z m) in *. clearbody nn mm.
  set (y := (t * (8 * tempo) / nn)%Q) in *. assert (Y : (y * nn == t * (8 * tempo))%Q) by (unfold y; field; lra). clearbody y.
  apply Qabs_case; intros; nra.
Qed.
Lemma quantize_step_idem : forall t step tempo beats q, (0 < step)%Q -> (0 < tempo)%Q -> 0 < beats ->
  quantize_to_nearest_step t step tempo beats = Ok q -> exists q', quantize_to_nearest_step q step tempo beats = Ok q' /\ (q' == q)%Q.
Proof.
  intros t step tempo beats q S T B H. destruct (quantize_step t step tempo beats S T B) as [n [m [q1 [E [U [N [M Q]]]]]]].
  rewrite E in H. apply Ok_inj in H. subst q1. destruct (quantize_step q step tempo beats S T B) as [n' [m' [q' [E' [U' [N' [M' Q']]]]]]].
  assert (n' = n) by (eapply up_unique; [reflexivity|eauto|eauto]). subst n'. exists q'. split; auto.
  assert (PN : (0 < inject_Z n)%Q) by (rewrite Zlt_Qlt in N; exact N).
  assert (X : (q * (8 * tempo) / inject_Z n == inject_Z m)%Q) by (rewrite Q, inject_Z_mult; field; lra).
  assert (m' = m). { eapply (nearest_unique _ (inject_Z m)); [exact X|exact M'|]. rewrite <- (nearest_exact (inject_Z m) m) at 2 by reflexivity. apply round_nearest. }
  subst m'. rewrite <- Q in Q'. nra.
Qed.
Lemma quantize_step_mono : forall t1 t2 step tempo beats q1 q2, (0 < step)%Q -> (0 < tempo)%Q -> 0 < beats -> (t1 <= t2)%Q ->
  quantize_to_nearest_step t1 step tempo beats = Ok q1 -> quantize_to_nearest_step t2 step tempo beats = Ok q2 -> (q1 <= q2)%Q.
Proof.
  intros t1 t2 step tempo beats q1 q2 S T B L H1 H2.
  destruct (quantize_step t1 step tempo beats S T B) as [n [m [q [E [U [N [M Q]]]]]]]. rewrite E in H1. apply Ok_inj in H1. subst q.
  destruct (quantize_step t2 step tempo beats S T B) as [n' [m' [q [E' [U' [N' [M' Q']]]]]]]. rewrite E' in H2. apply Ok_inj in H2. subst q.
  assert (n' = n) by (eapply up_unique; [reflexivity|eauto|eauto]). subst n'. assert (PN : (0 < inject_Z n)%Q) by (rewrite Zlt_Qlt in N; exact N).
  assert (MM : m <= m'). { eapply nearest_mono; [|exact M|exact M']. apply Qle_shift_div_l; auto. setoid_replace (t1 * (8 * tempo) / inject_Z n * inject_Z n)%Q with (t1 * (8 * tempo))%Q by (field; lra). nra. }
  assert (MN : (inject_Z (m * n) <= inject_Z (m' * n))%Q) by (rewrite <- Zle_Qle; nia). rewrite <- Q, <- Q' in MN. nra.
Qed.

(* alternative *)
Lemma half_up_nearest : forall x, nearest_away x (round_half_up x).
Proof.
  intro x. unfold round_half_up, nearest_away. destruct (Qle_bool 0 x) eqn:E; [apply Qle_bool_iff in E|apply Qle_bool_false in E].
  - destruct (Qfloor_bounds (x + (1 # 2))) as [F1 F2]. set (f := Qfloor (x + (1 # 2))) in *.
    assert (0 <= f). { assert (-1 < f) by (rewrite Zlt_Qlt; inj; lra). lia. } rewrite Zle_Qle in H. inj. split; [apply Qabs_Qle_condition; split; lra|].
    rewrite (Qabs_pos x), (Qabs_pos (inject_Z f)) by lra. apply Qabs_case; intros; lra.
  - destruct (Qceiling_bounds (x - (1 # 2))) as [F1 F2]. set (f := Qceiling (x - (1 # 2))) in *.
    assert (f <= 0). { assert (f < 1) by (rewrite Zlt_Qlt; inj; lra). lia. } rewrite Zle_Qle in H. inj. split; [apply Qabs_Qle_condition; split; lra|].
    rewrite (Qabs_neg x), (Qabs_neg (inject_Z f)) by lra. apply Qabs_case; intros; lra.
Qed.
Lemma alt_half : forall t sps, (0 < t * sps)%Q -> int_part (t * sps) (quantize_to_nearest_step_alt t sps (1 # 2)).
Proof.
  intros t sps H. unfold quantize_to_nearest_step_alt. destruct (half_up_nearest (t * sps - (1 # 2))) as [A B].
  set (r := round_half_up (t * sps - (1 # 2))) in *. apply Qabs_Qle_condition in A as A'. split; [lra|].
  destruct (Qlt_le_dec (t * sps) (inject_Z r + 1)) as [|G]; auto. exfalso.
  assert (E : (t * sps - (1 # 2) - inject_Z r == 1 # 2)%Q) by lra. assert (X : (Qabs (t * sps - (1 # 2) - inject_Z r) == 1 # 2)%Q) by (rewrite E; reflexivity). specialize (B X).
  assert (R : 0 <= r). { assert (-1 < r) by (rewrite Zlt_Qlt; inj; lra). lia. } rewrite Zle_Qle in R. inj. rewrite (Qabs_pos (inject_Z r)) in B by auto.
  revert B. apply Qabs_case; intros; lra.
Qed.
Lemma alt_zero : forall t sps, (t * sps == 0)%Q -> quantize_to_nearest_step_alt t sps (1 # 2) = -1.
Proof.
  intros t sps H. unfold quantize_to_nearest_step_alt, round_half_up.
  destruct (Qle_bool 0 (t * sps - (1 # 2))) eqn:E; [apply Qle_bool_iff in E; lra|].
  assert (X : (t * sps - (1 # 2) - (1 # 2) == inject_Z (-1))%Q) by (inj; lra). rewrite (Qceiling_comp _ _ X). apply Qceiling_Z.
Qed.

(* tempo *)
Lemma tempo_parts : forall spq qpm bpm d beats, ~ (d == 0)%Q ->
  (steps_per_second_from_bpm bpm spq * 60 == bpm * spq)%Q /\
  (from_bpm_spq_to_sps spq bpm d == from_spq_to_sps spq (bpm / d))%Q /\
  (from_bpm_spq_to_sps spq (qpm_to_bpm qpm d) d == from_spq_to_sps spq qpm)%Q /\
  (from_spq_to_sps spq bpm == steps_per_second_from_bpm bpm spq)%Q /\
  (bpm_to_qpm bpm beats == from_spq_to_sps beats bpm)%Q /\
  (qpm_to_bpm (bpm_to_qpm bpm d) d == bpm * (d * d / 60))%Q.
Proof.
  intros. unfold from_bpm_spq_to_sps, from_spq_to_sps, qpm_to_bpm, bpm_to_qpm, steps_per_second_from_bpm. repeat split; field; auto.
Qed.
Lemma tempo_round : forall bpm beats, (Qabs (bpm_to_qpm_np bpm beats - bpm_to_qpm bpm beats) * 20000000000 <= 1)%Q.
Proof.
  intros bpm beats. unfold bpm_to_qpm_np, bpm_to_qpm, round10. set (x := (bpm * beats / 60)%Q).
  assert (E : (bpm / 60 * beats == x)%Q) by (unfold x; field). rewrite E. destruct (round_nearest (x * 10000000000)) as [R _].
  set (r := inject_Z (round_half_even (x * 10000000000))) in *. clearbody r. clearbody x. apply Qabs_Qle_condition in R.
  assert (D : (r / 10000000000 == r * (1 # 10000000000))%Q) by (field). rewrite D. apply Qabs_case; intros; lra.
Qed.
