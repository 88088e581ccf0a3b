(** Lemmas for the stand-alone quantisers in double precision: step grids. *)
From Coq Require Import QArith Qabs Qround Lia Lqa Psatz.
From Verif Require Import PyBase L_Base M_Note L_Note L_Note2 M_Events M_Chord S_Graph L_Chord L_Graph5 L_Transforms M_Float S_Rounding S_ShiftF L_Float L_Float2 P_Rounding M_NoteF L_NoteF P_NoteF L_NoteF2 L_ShiftF L_Snap M_Utils S_Utils L_Utils L_Utils2 L_Utils3 M_UtilsF S_UtilsF L_UtilsF L_UtilsF2 L_UtilsF3.
Open Scope Z_scope.

Definition on_grid_f (k m : Z) (grid step : Q) : Q := fl (fl (inject_Z (k / m) * grid) + fl (inject_Z (k mod m) * step)).
Lemma injZ0 : forall z, 0 <= z -> (0 <= inject_Z z)%Q.
Proof. intros z H. change 0%Q with (inject_Z 0). rewrite <- Zle_Qle. exact H. Qed.
Lemma grid_f_ok : forall s e step grid, (0 <= s)%Q -> (0 <= e)%Q -> (0 < step)%Q -> (step <= grid)%Q ->
  exists m, int_part (fl (grid / step)) m /\ 0 < m /\
    quantize_note_to_step_grid_f s e step grid = Ok (on_grid_f (round_half_even (fl (s / step))) m grid step, on_grid_f (round_half_even (fl (e / step))) m grid step).
Proof.
  intros s e step grid A B S G. unfold quantize_note_to_step_grid_f.
  destruct (Qltb s 0) eqn:E1; [apply Qltb_lt in E1; lra|]. destruct (Qltb e 0) eqn:E2; [apply Qltb_lt in E2; lra|]. cbn [orb].
  destruct (Qeq_bool step 0) eqn:E3; [apply Qeq_bool_iff in E3; lra|]. cbv zeta.
  assert (GP : (1 <= fl (grid / step))%Q). { assert (X : (1 <= grid / step)%Q) by (apply Qle_shift_div_l; auto; lra). apply fl_mono in X. change 1%Q with (inject_Z 1) in X at 1. rewrite (fl_Z 1) in X by lia. exact X. }
  rewrite trunc_floor by lra. destruct (int_part_floor (fl (grid / step))) as [F1 F2]. set (m := Qfloor (fl (grid / step))) in *.
  assert (M : 0 < m) by (rewrite Zlt_Qlt; inj; lra). destruct (Z.eqb_spec m 0); [lia|].
  exists m. split; [split; auto|]. split; [auto|]. unfold on_grid_f. reflexivity.
Qed.
Lemma grid_f_neg : forall s e step grid, (s < 0)%Q \/ (e < 0)%Q -> quantize_note_to_step_grid_f s e step grid = Err ValueError.
Proof.
  intros s e step grid [A|A]; unfold quantize_note_to_step_grid_f; apply Qltb_lt in A; rewrite A; [reflexivity|]. rewrite orb_true_r. reflexivity.
Qed.
Lemma grid_f_zero : forall s e step grid, (0 <= s)%Q -> (0 <= e)%Q -> (0 < step)%Q -> (0 <= grid)%Q -> (grid <= step * (1 - (1 # 2 ^ 53)))%Q ->
  quantize_note_to_step_grid_f s e step grid = Err ZeroDivisionError.
Proof.
  intros s e step grid A B S G0 G. unfold quantize_note_to_step_grid_f.
  destruct (Qltb s 0) eqn:E1; [apply Qltb_lt in E1; lra|]. destruct (Qltb e 0) eqn:E2; [apply Qltb_lt in E2; lra|]. cbn [orb].
  destruct (Qeq_bool step 0) eqn:E3; [reflexivity|]. cbv zeta.
  assert (X : (grid / step <= 1 - (1 # 2 ^ 53))%Q) by (apply Qle_shift_div_r; auto; lra). assert (Y := fl_mono _ _ X). rewrite (fl_dyadic 9007199254740991 (-53) (1 - (1 # 2 ^ 53))) in Y by (reflexivity || discriminate).
  pose proof (fl_nonneg _ (quot_pos grid step G0 S)) as Z0. rewrite trunc_floor by exact Z0.
  assert (M : Qfloor (fl (grid / step)) = 0). { apply Qfloor_unique; [exact Z0|]. change (inject_Z 0) with 0%Q. eapply Qle_lt_trans; [exact Y|]. reflexivity. }
  rewrite M. reflexivity.
Qed.
Lemma on_grid_f_mono : forall m grid step j k, 0 < m -> (0 < step)%Q -> (step <= grid)%Q -> int_part (fl (grid / step)) m -> 0 <= j <= k -> k <= 2 ^ 49 ->
  (on_grid_f j m grid step <= on_grid_f k m grid step)%Q.
Proof.
  intros m grid step j k M S G [I1 I2] [J JK] K. unfold on_grid_f. apply fl_mono.
  assert (D : j / m <= k / m) by (apply Z.div_le_mono; lia). assert (J1 : 0 <= j / m) by (apply Z.div_pos; lia).
  pose proof (Z.mod_pos_bound j m M) as BJ. pose proof (Z.mod_pos_bound k m M) as BK. pose proof (Z.div_mod j m ltac:(lia)) as DJ. pose proof (Z.div_mod k m ltac:(lia)) as DK.
  destruct (Z.eq_dec (j / m) (k / m)) as [E|E].
  - rewrite <- E. apply Qplus_le_compat; [apply Qle_refl|]. apply fl_mono. apply Qmul_le; [lra|]. rewrite <- Zle_Qle. rewrite E in DJ. lia.
  - assert (R1 : (0 <= fl (inject_Z (k mod m) * step))%Q) by (apply fl_nonneg, Qmult_le_0_compat; [apply injZ0; lia|lra]).
    apply Qle_trans with (fl (inject_Z (k / m) * grid)); [|lra].
    apply Qle_trans with (fl (inject_Z (j / m + 1) * grid)); [|apply fl_mono, Qmul_le; [lra|rewrite <- Zle_Qle; lia]].
    assert (AM : j / m * m <= 2 ^ 49) by nia. assert (MK : m <= 2 ^ 49) by nia.
    assert (RM : (inject_Z (j mod m) <= inject_Z m - 1)%Q). { assert (X : j mod m <= m + -1) by lia. rewrite Zle_Qle in X. rewrite inject_Z_plus in X. change (inject_Z (-1)) with (-1)%Q in X. lra. }
    assert (A0 : (0 <= inject_Z (j / m))%Q) by (apply injZ0; auto). assert (R0 : (0 <= inject_Z (j mod m))%Q) by (apply injZ0; lia).
    assert (M0 : (1 <= inject_Z m)%Q) by (change 1%Q with (inject_Z 1); rewrite <- Zle_Qle; lia).
    rewrite Zle_Qle in AM, MK. rewrite inject_Z_mult in AM. rewrite inject_Z_plus. change (inject_Z 1) with 1%Q. change (inject_Z (2 ^ 49)) with 562949953421312%Q in *.
    set (a := inject_Z (j / m)) in *. set (r := inject_Z (j mod m)) in *. set (mm := inject_Z m) in *. clearbody a r mm.
    assert (Q0 : (0 <= grid / step)%Q) by (apply quot_pos; lra). destruct (fl_err _ Q0) as [Q1 Q2].
    assert (QE : (grid / step * step == grid)%Q) by (field; lra). set (w := (grid / step)%Q) in *. set (fw := fl w) in *. clearbody fw w.
    destruct (fl_err (a * grid) ltac:(apply Qmult_le_0_compat; lra)) as [_ P1]. destruct (fl_err (r * step) ltac:(apply Qmult_le_0_compat; lra)) as [_ P2].
    destruct (fl_err ((a + 1) * grid) ltac:(apply Qmult_le_0_compat; lra)) as [P3 _].
    set (x1 := fl (a * grid)) in *. set (x2 := fl (r * step)) in *. set (x3 := fl ((a + 1) * grid)) in *. clearbody x1 x2 x3. rewrite U_eq in *.
    (* in units of the step: grid = w * step *)
    assert (W1 : (mm <= w * (1 + (1 # 9007199254740992)))%Q) by lra. assert (W2 : (w * (1 - (1 # 9007199254740992)) <= mm + 1)%Q) by lra.
    assert (AW : (a * w * (1 - (1 # 9007199254740992)) <= 1125899906842624)%Q) by nra.
    assert (F : (a * w * (1 + (1 # 9007199254740992)) + r * (1 + (1 # 9007199254740992)) <= (a + 1) * w * (1 - (1 # 9007199254740992)))%Q).
    { assert (WB : (w <= 1125899906842624)%Q) by lra. set (aw := (a * w)%Q) in *. setoid_replace ((a + 1) * w)%Q with (aw + w)%Q by (unfold aw; ring). clearbody aw. lra. }
    rewrite <- QE in P1, P3.
    assert (F' := Qmul_le _ _ step ltac:(lra) F). lra.
Qed.
Lemma rhe_div_nonneg : forall t step, (0 <= t)%Q -> (0 < step)%Q -> 0 <= round_half_even (fl (t / step)).
Proof. intros t step T S. apply rhe_nonneg, fl_nonneg, quot_pos; auto. Qed.
Lemma grid_step_near : forall t step, (0 <= t)%Q -> (0 < step)%Q -> let k := round_half_even (fl (t / step)) in
  (Qabs (inject_Z k * step - t) <= step * (1 # 2) + t * (1 # 2 ^ 50))%Q.
Proof.
  intros t step T S k. pose proof (rhe_bounds (fl (t / step))) as R. fold k in R. destruct (fl_err _ (quot_pos t step T S)) as [E1 E2].
  assert (QE : (t / step * step == t)%Q) by (field; lra). set (w := (t / step)%Q) in *. set (fw := fl w) in *. set (z := inject_Z k) in *. clearbody fw w z. rewrite U_eq in *.
  change (1 # 2 ^ 50)%Q with (1 # 1125899906842624)%Q. clear k.
  assert (A1 : (z <= w * (1 + (1 # 9007199254740992)) + (1 # 2))%Q) by lra. assert (A2 : (w * (1 - (1 # 9007199254740992)) - (1 # 2) <= z)%Q) by lra.
  assert (B1 := Qmul_le _ _ step ltac:(lra) A1). assert (B2 := Qmul_le _ _ step ltac:(lra) A2). set (zs := (z * step)%Q) in *. clearbody zs.
  apply Qabs_Qle_condition. rewrite <- QE. split; rewrite <- QE in T; lra.
Qed.
Lemma grid_steps : forall S n, (0 < S)%Q -> 0 < n <= 2 ^ 49 -> let x := fl (fl (inject_Z n * S) / fl S) in Qfloor x = n \/ Qfloor x = n - 1.
Proof.
  intros S n S0 N x. assert (N0 : (1 <= inject_Z n)%Q) by (change 1%Q with (inject_Z 1); rewrite <- Zle_Qle; lia).
  assert (F0 := fl_gt0 S S0). assert (NS : (0 <= inject_Z n * S)%Q) by (apply Qmult_le_0_compat; lra).
  assert (X : near 3 x (inject_Z n)).
  { apply near_fl'. apply (near_trans 1 1 _ (inject_Z n * S / fl S)); [apply near_quot; auto; apply near_fl; auto|].
    apply (near_m 1 (inject_Z n * S / fl S) (inject_Z n * S / S)); [reflexivity|field; lra|]. apply near_div; auto. apply near_fl; lra. }
  apply near_bnd in X; [|vm_compute; discriminate]. change (inject_Z (Z.of_nat 3)) with 3%Q in X. rewrite U_eq in X. clearbody x.
  assert (NB : (inject_Z n <= 562949953421312)%Q) by (change 562949953421312%Q with (inject_Z (2 ^ 49)); rewrite <- Zle_Qle; lia).
  assert (B : (inject_Z n - 1 < x)%Q /\ (x < inject_Z n + 1)%Q) by (set (q := inject_Z n) in *; split; lra).
  destruct (Qfloor_bounds x) as [A1 A2].
  assert (H1 : n - 1 < Qfloor x + 1) by (rewrite Zlt_Qlt; unfold Z.sub; inj; change (inject_Z (- (1))) with (-1)%Q; lra).
  assert (H2 : Qfloor x < n + 1) by (rewrite Zlt_Qlt; inj; lra). lia.
Qed.
Lemma on_grid_landed : forall S n m t, (0 < S)%Q -> 0 < n -> 0 < m -> (m = n \/ m = n - 1) -> (0 <= t)%Q ->
  landed m n (fl S) t (on_grid_f (round_half_even (fl (t / fl S))) m (fl (inject_Z n * S)) (fl S)).
Proof.
  intros S n m t S0 N M MN T. assert (F0 := fl_gt0 S S0). pose proof (rhe_div_nonneg t (fl S) T F0) as K0. pose proof (grid_step_near t (fl S) T F0) as KT.
  set (k := round_half_even (fl (t / fl S))) in *. exists k. split; [auto|]. split; [exact KT|]. clearbody k. unfold on_grid_f.
  assert (N0 : (1 <= inject_Z n)%Q) by (change 1%Q with (inject_Z 1); rewrite <- Zle_Qle; lia).
  assert (G : near 2 (fl (inject_Z n * S)) (inject_Z n * fl S)).
  { apply (near_trans 1 1 _ (inject_Z n * S)); [apply near_fl, Qmult_le_0_compat; lra|]. apply (near_m 1 (S * inject_Z n) (fl S * inject_Z n)); [ring|ring|]. apply near_mul; [lra|].
    destruct (near_fl S ltac:(lra)) as [A [B [C D]]]. split; [auto|split; [auto|split; auto]]. }
  set (grid := fl (inject_Z n * S)) in *. set (step := fl S) in *. clearbody grid step.
  assert (D0 : 0 <= k / m) by (apply Z.div_pos; lia). pose proof (Z.mod_pos_bound k m M) as BK. pose proof (Z.div_mod k m ltac:(lia)) as DK.
  set (E := (inject_Z (k / m) * (inject_Z n * step) + inject_Z (k mod m) * step)%Q).
  assert (Q : near 4 (fl (fl (inject_Z (k / m) * grid) + fl (inject_Z (k mod m) * step))) E).
  { apply near_fl'. unfold E. apply near_add; [apply near_fl'|].
    - apply (near_m 2 (grid * inject_Z (k / m)) (inject_Z n * step * inject_Z (k / m))); [ring|ring|]. apply near_mul; [apply injZ0; auto|exact G].
    - apply (near_le 1); [lia|]. apply near_fl. apply Qmult_le_0_compat; [apply injZ0; lia|lra]. }
  assert (EV : (E == inject_Z (k + k / m * (n - m)) * step)%Q).
  { unfold E. setoid_replace (inject_Z (k / m) * (inject_Z n * step) + inject_Z (k mod m) * step)%Q with (inject_Z (k / m * n + k mod m) * step)%Q by (rewrite inject_Z_plus, inject_Z_mult; ring).
    replace (k / m * n + k mod m) with (k + k / m * (n - m)) by lia. reflexivity. }
  assert (EB : (E <= 2 * (inject_Z k * step))%Q).
  { rewrite EV. setoid_replace (2 * (inject_Z k * step))%Q with (inject_Z (k + k) * step)%Q by (rewrite inject_Z_plus; ring). apply Qmul_le; [lra|]. rewrite <- Zle_Qle.
    assert (k / m <= k) by (apply Z.div_le_upper_bound; nia). destruct MN as [-> | ->]; nia. }
  apply near_bnd in Q; [|vm_compute; discriminate]. change (inject_Z (Z.of_nat 4)) with 4%Q in Q. rewrite U_eq in Q. rewrite <- EV. apply Qabs_Qle_condition in KT.
      set (q := fl _) in *. set (ks := (inject_Z k * step)%Q) in *. clearbody q ks E. change (1 # 2 ^ 47)%Q with (1 # 140737488355328)%Q. change (1 # 2 ^ 50)%Q with (1 # 1125899906842624)%Q in *. apply Qabs_Qle_condition. split; lra.
Qed.
