(** Lemmas for the quantisation of notes in double precision. *)
From Coq Require Import Qround Lia Lqa Psatz.
From Verif Require Import PyBase L_Base M_Note M_Events S_Note L_Note L_Note2 M_Float L_Float L_Float2 P_Rounding M_NoteF.
Open Scope Z_scope.

Lemma fl_mono : forall x y, (x <= y)%Q -> (fl x <= fl y)%Q.
Proof.
  intros x y H. destruct (Qlt_le_dec x 0) as [X | X]; [|apply fl_mono0; auto].
  destruct (Qlt_le_dec 0 y) as [Y | Y].
  - apply Qle_trans with 0%Q; [|apply fl_nonneg; lra]. pose proof (fl_nonneg (- x) ltac:(lra)) as F. rewrite fl_opp in F. lra.
  - pose proof (fl_mono0 (- y) (- x) ltac:(lra) ltac:(lra)) as F. rewrite !fl_opp in F. lra.
Qed.
Lemma fl_le0 : forall x, (x <= 0)%Q -> (fl x <= 0)%Q.
Proof. intros x H. pose proof (fl_nonneg (- x) ltac:(lra)) as F. rewrite fl_opp in F. lra. Qed.
Lemma fl_le_Z : forall x n, 0 <= n <= 2 ^ 53 -> (x <= inject_Z n)%Q -> (fl x <= inject_Z n)%Q.
Proof. intros x n N H. rewrite <- (fl_Z n N). apply fl_mono; auto. Qed.

Lemma near2_abs : forall a b, near 2 a b -> (a <= b + b * (8 * u))%Q /\ (b - b * (8 * u) <= a)%Q.
Proof.
  intros a b N. pose proof (near_abs 2 a b ltac:(vm_compute; discriminate) N) as A.
  assert (E : (inject_Z (Z.of_nat 2) / inject_Z (2 ^ 51) == 8 * u)%Q) by reflexivity. rewrite E in A.
  destruct (Qabsb_spec (a - b)) as [[P Q] | [P Q]]; rewrite Q in A; split; lra.
Qed.

Section Place.
Variables (sps : Z) (amount : Q).
Hypothesis Hsps : 0 < sps.
Hypothesis Ha : (0 < amount)%Q.
Hypothesis Ha1 : (amount <= 1)%Q.
Lemma Ksps : (1 <= inject_Z sps)%Q.
Proof. change 1%Q with (inject_Z 1). rewrite <- Zle_Qle. lia. Qed.
Lemma place_near : forall t, (0 <= t)%Q -> near 2 (place_f t sps amount) (t * inject_Z sps + (1 - amount)).
Proof.
  intros t T. pose proof Ksps as K. unfold place_f. apply near_fl'. apply near_add; apply near_fl; [apply Qmult_le_0_compat; lra|lra].
Qed.
Lemma place_mono : forall t t', (t <= t')%Q -> (place_f t sps amount <= place_f t' sps amount)%Q.
Proof.
  intros t t' T. pose proof Ksps as K. unfold place_f. apply fl_mono. apply Qplus_le_compat; [|apply Qle_refl]. apply fl_mono. apply Qmul_le; lra.
Qed.
Lemma place_nonneg : forall t, (0 <= t)%Q -> (0 <= place_f t sps amount)%Q.
Proof. intros t T. exact (proj1 (place_near t T)). Qed.
Lemma step_floor : forall t, (0 <= t)%Q -> quantize_step_f t sps amount true = Ok (Qfloor (place_f t sps amount)).
Proof.
  intros t T. unfold quantize_step_f. rewrite (proj2 (Z.leb_gt sps 0)) by auto. rewrite Qle_bool_ff by auto.
  rewrite Z.max_r; [reflexivity|]. change 0 with (Qfloor (inject_Z 0)). apply Qfloor_resp_le. apply place_nonneg; auto.
Qed.
Lemma step_ceil : forall t, (0 <= t)%Q -> quantize_step_f t sps amount false = Ok (Qceiling (place_f t sps amount)).
Proof.
  intros t T. unfold quantize_step_f. rewrite (proj2 (Z.leb_gt sps 0)) by auto. rewrite Qle_bool_ff by auto.
  rewrite Z.max_r; [reflexivity|]. change 0 with (Qceiling (inject_Z 0)). apply Qceiling_resp_le. apply place_nonneg; auto.
Qed.
End Place.

Lemma seconds_mono : forall a b sps, 0 < sps -> (0 <= a)%Q -> (a <= b)%Q -> (seconds_f a sps <= seconds_f b sps)%Q.
Proof.
  intros a b sps S1 A AB. pose proof (Ksps sps S1) as K. unfold seconds_f, around2_f.
  apply fl_mono. unfold Qdiv at 1 3. apply Qmul_le; [discriminate|]. rewrite <- Zle_Qle. apply rhe_mono. apply fl_mono. apply Qmul_le; [discriminate|]. apply fl_mono.
  unfold Qdiv. apply Qmul_le; [apply Qlt_le_weak, Qinv_lt_0_compat; lra|auto].
Qed.
Lemma around2_f_near : forall x, (0 <= x)%Q -> (Qabsb (around2_f x - x) <= (1 # 200) + (x + 1) * (4 * u))%Q /\ (0 <= around2_f x)%Q.
Proof.
  intros x X. unfold around2_f. assert (X1 : (0 <= x * 100)%Q) by lra. destruct (fl_err _ X1) as [B1 B2]. pose proof (fl_nonneg _ X1) as B0. set (b := fl (x * 100)) in *. clearbody b.
  pose proof (rhe_bounds b) as [R1 R2]. assert (R0 : (0 <= inject_Z (round_half_even b))%Q).
  { change 0%Q with (inject_Z 0). rewrite <- Zle_Qle. apply rhe_ge_Z. exact B0. }
  set (r := inject_Z (round_half_even b)) in *. clearbody r.
  assert (E : (r / 100 == r * (1 # 100))%Q) by reflexivity.
  assert (R3 : (0 <= r / 100)%Q) by (rewrite E; lra). destruct (fl_err _ R3) as [D1 D2]. pose proof (fl_nonneg _ R3) as D0. set (d := fl (r / 100)) in *. clearbody d. rewrite E in D1, D2.
  split; [|exact D0]. assert (U : u = (1 # 9007199254740992)%Q) by reflexivity. rewrite U in *.
  destruct (Qabsb_spec (d - x)) as [[P Q] | [P Q]]; rewrite Q; lra.
Qed.
Lemma seconds_near : forall a sps, 0 < sps -> (0 <= a)%Q ->
  (Qabsb (seconds_f a sps - a / inject_Z sps) <= (1 # 200) + (a / inject_Z sps + 1) * (8 * u))%Q /\ (0 <= seconds_f a sps)%Q.
Proof.
  intros a sps S1 A. pose proof (Ksps sps S1) as K. unfold seconds_f.
  assert (Q0 : (0 <= a / inject_Z sps)%Q) by (apply Qle_shift_div_l; lra). set (q := (a / inject_Z sps)%Q) in *. clearbody q.
  destruct (fl_err _ Q0) as [E1 E2]. pose proof (fl_nonneg _ Q0) as E0. destruct (around2_f_near _ E0) as [N1 N0]. set (v := fl q) in *. clearbody v. set (w := around2_f v) in *. clearbody w.
  split; [|exact N0]. assert (U : u = (1 # 9007199254740992)%Q) by reflexivity. rewrite U in *.
  destruct (Qabsb_spec (w - v)) as [[P Q] | [P Q]]; rewrite Q in N1; destruct (Qabsb_spec (w - q)) as [[P' Q'] | [P' Q']]; rewrite Q'; lra.
Qed.
Lemma milli_b : ((1 # 1001) <= milli)%Q /\ (milli <= (1 # 999))%Q.
Proof. split; vm_compute; discriminate. Qed.

Lemma tail_valid : forall (b : bool) n2 ns ne f n', (0 <= n_qs n2)%Q -> (n_qs n2 < n_qe n2)%Q ->
  (if b then run (n_set_start n2 ns) (fun n3 => n_set_end n3 (f n3)) else run (n_set_end n2 ne) (fun n3 => n_set_start n3 ns)) = (Ok tt, n') ->
  (0 <= n_qs n')%Q /\ (n_qs n' < n_qe n')%Q /\ (0 <= n_start n')%Q /\ (n_start n' < n_end n')%Q.
Proof.
  intros b n2 ns ne f n' A B H. destruct b; apply run_ok in H as [n3 [H3 H4]].
  - apply set_start_ok in H3 as [-> [? ?]]. apply set_end_ok in H4 as [-> [? ?]].
    cbn [with_start with_end n_qs n_qe n_start n_end] in *. tauto.
  - apply set_end_ok in H3 as [-> [? ?]]. apply set_start_ok in H4 as [-> [? ?]].
    cbn [with_start with_end n_qs n_qe n_start n_end] in *. tauto.
Qed.
(** The notes a quantisation can leave behind. *)
Lemma quantize_f_valid : forall n sps amount ms n',
  n_quantize_in_place_f n sps amount ms = (Ok tt, n') ->
  (0 <= n_qs n')%Q /\ (n_qs n' < n_qe n')%Q /\ (0 <= n_start n')%Q /\ (n_start n' < n_end n')%Q.
Proof.
  intros n sps amount ms n' H. unfold n_quantize_in_place_f in H.
  destruct (quantize_step_f (n_start n) sps amount true) as [s0|e]; [|discriminate].
  destruct (quantize_step_f (n_end n) sps amount false) as [e0|e]; [|discriminate].
  cbv zeta in H. apply run_ok in H as [n2 [_ H]].
  qcase (Qltb (n_qs n2) 0); [discriminate|]. qcase (Qltb (n_qe n2) 0); [discriminate|].
  qcase (Qle_bool (n_qe n2) (n_qs n2)); [discriminate|].
  match type of H with (if Qltb ?a ?b then run (n_set_start _ ?ns) (fun n3 => n_set_end n3 (fl (n_start n3 + ?d))) else _) = _ =>
    exact (tail_valid (Qltb a b) n2 ns a (fun n3 => fl (n_start n3 + d)) n' ltac:(assumption) ltac:(assumption) H) end.
Qed.
Lemma set_start_keeps' : forall n v, (n_start n < n_end n)%Q -> (n_start (snd (n_set_start n v)) < n_end (snd (n_set_start n v)))%Q.
Proof. intros n v V. unfold n_set_start. qcase (Qltb v 0); [exact V|]. qcase (Qle_bool (n_end n) v); [exact V|]. cbn [snd with_start n_start n_end]. auto. Qed.
Lemma set_end_keeps' : forall n v, (n_start n < n_end n)%Q -> (n_start (snd (n_set_end n v)) < n_end (snd (n_set_end n v)))%Q.
Proof. intros n v V. unfold n_set_end. qcase (Qltb v 0); [exact V|]. qcase (Qle_bool v (n_start n)); [exact V|]. cbn [snd with_end n_start n_end]. auto. Qed.
Lemma quantize_f_keeps : forall n sps amount ms,
  same_identity (snd (n_quantize_in_place_f n sps amount ms)) n /\
  ((n_start n < n_end n)%Q -> (n_start (snd (n_quantize_in_place_f n sps amount ms)) < n_end (snd (n_quantize_in_place_f n sps amount ms)))%Q).
Proof.
  intros. unfold n_quantize_in_place_f.
  destruct (quantize_step_f (n_start n) sps amount true) as [s0|e]; [|simpl; auto using same_identity_refl].
  destruct (quantize_step_f (n_end n) sps amount false) as [e0|e]; [|simpl; auto using same_identity_refl].
  cbv zeta.
  match goal with |- context [run (if n_is_quantized n then ?A else ?B) ?K] => set (r := if n_is_quantized n then A else B) end.
  assert (R : n_start (snd r) = n_start n /\ n_end (snd r) = n_end n /\ same_identity (snd r) n).
  { subst r. destruct (n_is_quantized n).
    - exact (steps_part n _ _ (fun n1 => fl (n_qs n1 + fl (fl _ / inject_Z sps))) eq_refl).
    - exact (steps_part n _ _ (fun n1 => fl (_ + inject_Z (Qfloor (fl (_ * inject_Z sps))))) eq_refl). }
  clearbody r. destruct R as [R1 [R2 R3]].
  assert (X : forall b ns ne m f,
     let w := (if b : bool then run (n_set_start m ns) (fun n3 => n_set_end n3 (f n3)) else run (n_set_end m ne) (fun n3 => n_set_start n3 ns)) in
     same_identity (snd w) m /\ ((n_start m < n_end m)%Q -> (n_start (snd w) < n_end (snd w))%Q)).
  { intros b ns ne m f. destruct b; cbv zeta; split.
    - apply run_snd with (P := fun a => same_identity a m); [apply set_start_id|]. intros a H; eapply same_identity_trans; [apply set_end_id|exact H].
    - intro V. apply run_snd with (P := fun a => (n_start a < n_end a)%Q); [apply set_start_keeps'; auto|]. intros; apply set_end_keeps'; auto.
    - apply run_snd with (P := fun a => same_identity a m); [apply set_end_id|]. intros a H; eapply same_identity_trans; [apply set_start_id|exact H].
    - intro V. apply run_snd with (P := fun a => (n_start a < n_end a)%Q); [apply set_end_keeps'; auto|]. intros; apply set_start_keeps'; auto. }
  destruct r as [[[]|e] m]; cbn [run snd] in *.
  - destruct (Qltb (n_qs m) 0); [cbn [snd]; split; [auto|rewrite R1, R2; auto]|].
    destruct (Qltb (n_qe m) 0); [cbn [snd]; split; [auto|rewrite R1, R2; auto]|].
    destruct (Qle_bool (n_qe m) (n_qs m)); [cbn [snd]; split; [auto|rewrite R1, R2; auto]|].
    match goal with |- context [if Qltb ?a ?b then run (n_set_start _ ?ns) (fun n3 => n_set_end n3 (fl (n_start n3 + ?d))) else _] => destruct (X (Qltb a b) ns a m (fun n3 => fl (n_start n3 + d))) as [X1 X2] end.
    split; [eapply same_identity_trans; eauto|]. intro V; apply X2; rewrite R1, R2; auto.
  - split; auto. rewrite R1, R2; auto.
Qed.
