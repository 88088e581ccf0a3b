(** Lemmas for the stand-alone quantisers in double precision: steps of a measure and step grids. *)
From Coq Require Import QArith Qabs Qround Lia Lqa Psatz.
From Verif Require Import PyBase L_Base M_Note L_Note L_Note2 M_Events M_Chord S_Graph L_Chord L_Graph5 L_Transforms M_Float S_Rounding S_ShiftF L_Float L_Float2 P_Rounding M_NoteF L_NoteF P_NoteF L_NoteF2 L_ShiftF L_Snap M_Utils S_Utils L_Utils L_Utils2 L_Utils3 M_UtilsF L_UtilsF L_UtilsF2.
Open Scope Z_scope.

(* steps of a measure *)
Definition tps (tempo : Q) : Q := fl (fl (inject_Z 480 * tempo) / 60).
Lemma tps_near : forall tempo, (0 < tempo)%Q -> near 2 (tps tempo) (8 * tempo).
Proof.
  intros tempo T. unfold tps. apply near_fl'. apply (near_m 1 (fl (inject_Z 480 * tempo) * (1 # 60)) (inject_Z 480 * tempo * (1 # 60))); [reflexivity|change (inject_Z 480) with 480%Q; ring|].
  apply near_mul; [discriminate|]. apply near_fl. change (inject_Z 480) with 480%Q. lra.
Qed.
Lemma tps_pos : forall tempo, (0 < tempo)%Q -> (0 < tps tempo)%Q.
Proof. intros tempo T. eapply near_pos; [apply tps_near; auto|lra]. Qed.
Definition step_at (t tempo : Q) (n : Z) : Z := round_half_even (fl (fl (t * tps tempo) / inject_Z n)).
Definition time_of (m n : Z) (tempo : Q) : Q := fl (inject_Z (m * n) / tps tempo).
Lemma step_f_shape : forall step beats, (0 < step)%Q -> 0 < beats -> 480 * beats <= 2 ^ 53 ->
  exists n, 0 < n /\ rounded_up (fl (inject_Z (480 * beats) / step)) n /\
    forall t tempo, (0 < tempo)%Q -> quantize_to_nearest_step_f t step tempo beats = Ok (time_of (step_at t tempo n) n tempo).
Proof.
  intros step beats S B BB. set (per := fl (inject_Z (480 * beats) / step)). exists (Qceiling per).
  assert (PP : (0 < inject_Z (480 * beats) / step)%Q). { apply Qlt_shift_div_l; auto. ring_simplify. change 0%Q with (inject_Z 0). rewrite <- Zlt_Qlt. lia. }
  assert (P1 : (0 < per)%Q) by (apply fl_gt0; auto). destruct (ceil_up per) as [C1 C2].
  assert (N0 : 0 < Qceiling per) by (rewrite Zlt_Qlt; inj; lra). split; [auto|]. split; [split; auto|]. intros t tempo T.
  unfold quantize_to_nearest_step_f, time_of, step_at. destruct (Qeq_bool step 0) eqn:E0; [apply Qeq_bool_iff in E0; lra|]. cbv zeta. fold per.
  assert (N : (if Qeq_bool step 1 then Qfloor per else Qceiling per) = Qceiling per).
  { destruct (Qeq_bool step 1) eqn:E1; auto. apply Qeq_bool_iff in E1. assert (E : (per == inject_Z (480 * beats))%Q) by (apply fl_int; [lia|]; rewrite E1; field).
    rewrite (Qfloor_comp _ _ E), (Qceiling_comp _ _ E), Qfloor_Z, Qceiling_Z. reflexivity. }
  rewrite N. clear N. set (n := Qceiling per) in *. clearbody n. destruct (Z.eqb_spec n 0); [lia|]. change (fl (fl (inject_Z 480 * tempo) / 60)) with (tps tempo).
  destruct (Qeq_bool (tps tempo) 0) eqn:E2; [apply Qeq_bool_iff in E2; pose proof (tps_pos tempo T); lra|]. generalize (tps tempo). intros v.
  destruct (Qeq_bool step 1); [|reflexivity].
  rewrite Z.mod_mul by lia. reflexivity.
Qed.
Lemma step_at_mono : forall t1 t2 tempo n, (0 < tempo)%Q -> 0 < n -> (t1 <= t2)%Q -> step_at t1 tempo n <= step_at t2 tempo n.
Proof.
  intros t1 t2 tempo n T N L. unfold step_at. apply rhe_mono. apply fl_mono. unfold Qdiv. pose proof (tps_pos tempo T). assert (N0 : (0 < inject_Z n)%Q) by (change 0%Q with (inject_Z 0); rewrite <- Zlt_Qlt; lia).
  apply Qmul_le; [apply Qlt_le_weak, Qinv_lt_0_compat; auto|]. apply fl_mono. apply Qmul_le; lra.
Qed.
Lemma time_of_mono : forall m1 m2 n tempo, (0 < tempo)%Q -> 0 < n -> m1 <= m2 -> (time_of m1 n tempo <= time_of m2 n tempo)%Q.
Proof.
  intros m1 m2 n tempo T N L. unfold time_of. apply fl_mono. unfold Qdiv. pose proof (tps_pos tempo T). apply Qmul_le; [apply Qlt_le_weak, Qinv_lt_0_compat; auto|]. rewrite <- Zle_Qle. nia.
Qed.
Lemma near_quot : forall k a b c, (0 < c)%Q -> near k a b -> near k (a / c) (b / c).
Proof. intros k a b c C N. unfold Qdiv. apply near_mul; [apply Qlt_le_weak, Qinv_lt_0_compat; auto|auto]. Qed.
Lemma step_at_near : forall t tempo n, (0 <= t)%Q -> (0 < tempo)%Q -> 0 < n -> near 4 (fl (fl (t * tps tempo) / inject_Z n)) (t * (8 * tempo) / inject_Z n).
Proof.
  intros t tempo n A T N. assert (N0 : (0 < inject_Z n)%Q) by (change 0%Q with (inject_Z 0); rewrite <- Zlt_Qlt; lia).
  apply near_fl'. apply near_quot; auto. apply near_fl'. apply (near_m 2 (tps tempo * t) (8 * tempo * t)); [ring|ring|]. apply near_mul; auto. apply tps_near; auto.
Qed.
Lemma time_of_near : forall m n tempo, 0 <= m -> 0 < n -> (0 < tempo)%Q -> near 3 (time_of m n tempo) (inject_Z (m * n) / (8 * tempo)).
Proof.
  intros m n tempo M N T. unfold time_of. apply near_fl'. apply near_div; [|lra|apply tps_near; auto]. change 0%Q with (inject_Z 0). rewrite <- Zle_Qle. nia.
Qed.
Lemma step_at_nonneg : forall t tempo n, (0 <= t)%Q -> (0 < tempo)%Q -> 0 < n -> 0 <= step_at t tempo n.
Proof. intros t tempo n A T N. unfold step_at. apply rhe_nonneg. exact (proj1 (step_at_near t tempo n A T N)). Qed.
Lemma step_f_error : forall t tempo n, (0 <= t)%Q -> (0 < tempo)%Q -> 0 < n -> let D := (inject_Z n / (8 * tempo))%Q in
  (Qabs (time_of (step_at t tempo n) n tempo - t) <= D * (1 # 2) + (t + D) * (1 # 2 ^ 47))%Q.
Proof.
  intros t tempo n A T N D. assert (N0 : (0 < inject_Z n)%Q) by (change 0%Q with (inject_Z 0); rewrite <- Zlt_Qlt; lia).
  assert (D0 : (0 < D)%Q) by (unfold D, Qdiv; apply Qmult_lt_0_compat; [auto|apply Qinv_lt_0_compat; lra]).
  pose proof (step_at_near t tempo n A T N) as Y. pose proof (step_at_nonneg t tempo n A T N) as M. set (m := step_at t tempo n) in *. pose proof (time_of_near m n tempo M N T) as Q.
  assert (R : (fl (fl (t * tps tempo) / inject_Z n) - (1 # 2) <= inject_Z m <= fl (fl (t * tps tempo) / inject_Z n) + (1 # 2))%Q) by exact (rhe_bounds (fl (fl (t * tps tempo) / inject_Z n))).
  apply near_bnd in Y; [|vm_compute; discriminate]. apply near_bnd in Q; [|vm_compute; discriminate].
  change (inject_Z (Z.of_nat 4)) with 4%Q in Y. change (inject_Z (Z.of_nat 3)) with 3%Q in Q. rewrite U_eq in *.
  assert (TD : (t * (8 * tempo) / inject_Z n * D == t)%Q) by (unfold D; field; lra). assert (MD : (inject_Z (m * n) / (8 * tempo) == inject_Z m * D)%Q) by (unfold D; rewrite inject_Z_mult; field; lra).
  assert (M0 : (0 <= inject_Z m)%Q) by (change 0%Q with (inject_Z 0); rewrite <- Zle_Qle; exact M).
  rewrite MD in Q. set (y := fl _) in *. set (q := time_of m n tempo) in *. set (T' := (t * (8 * tempo) / inject_Z n)%Q) in *. set (z := inject_Z m) in *. clearbody y q T' z D. clear MD m M.
  assert (T0 : (0 <= T')%Q). { apply (Qmult_le_r _ _ D); [auto|]. rewrite TD. lra. }
  change (1 # 2 ^ 47)%Q with (1 # 140737488355328)%Q.
  assert (Z1 : (z <= T' * (1 + (16 # 9007199254740992)) + (1 # 2))%Q) by lra. assert (Z2 : (T' * (1 - (16 # 9007199254740992)) - (1 # 2) <= z)%Q) by lra.
  assert (K1 : (z * D <= (T' * (1 + (16 # 9007199254740992)) + (1 # 2)) * D)%Q) by (apply Qmul_le; lra).
  assert (K2 : ((T' * (1 - (16 # 9007199254740992)) - (1 # 2)) * D <= z * D)%Q) by (apply Qmul_le; lra).
  assert (K3 : (0 <= z * D)%Q) by (apply Qmult_le_0_compat; lra).
  set (zD := (z * D)%Q) in *. clearbody zD.
  assert (K1' : (zD <= t * (1 + (16 # 9007199254740992)) + (1 # 2) * D)%Q) by (rewrite <- TD at 1; lra).
  assert (K2' : (t * (1 - (16 # 9007199254740992)) - (1 # 2) * D <= zD)%Q) by (rewrite <- TD at 1; lra).
  clear K1 K2 Z1 Z2. apply Qabs_Qle_condition. split; lra.
Qed.
Lemma step_f_idem : forall t tempo n, (0 <= t)%Q -> (0 < tempo)%Q -> 0 < n -> (t * (8 * tempo) <= inject_Z (2 ^ 48))%Q ->
  step_at (time_of (step_at t tempo n) n tempo) tempo n = step_at t tempo n.
Proof.
  intros t tempo n A T N L. assert (N0 : (1 <= inject_Z n)%Q) by (change 1%Q with (inject_Z 1); rewrite <- Zle_Qle; lia). pose proof (tps_pos tempo T) as TP.
  pose proof (step_at_near t tempo n A T N) as Y. pose proof (step_at_nonneg t tempo n A T N) as M. set (m := step_at t tempo n) in *.
  assert (R : (fl (fl (t * tps tempo) / inject_Z n) - (1 # 2) <= inject_Z m <= fl (fl (t * tps tempo) / inject_Z n) + (1 # 2))%Q) by exact (rhe_bounds (fl (fl (t * tps tempo) / inject_Z n))).
  apply near_bnd in Y; [|vm_compute; discriminate]. change (inject_Z (Z.of_nat 4)) with 4%Q in Y. rewrite U_eq in Y.
  assert (TB : (t * (8 * tempo) / inject_Z n <= 281474976710656)%Q) by (apply Qle_shift_div_r; [lra|]; change (inject_Z (2 ^ 48)) with 281474976710656%Q in L; lra).
  assert (T0 : (0 <= t * (8 * tempo) / inject_Z n)%Q) by (apply Qle_shift_div_l; [lra|]; ring_simplify; apply Qmult_le_0_compat; lra).
  assert (MB : (inject_Z m <= 281474976710658)%Q) by lra.
  assert (M0 : (0 <= inject_Z m)%Q) by (change 0%Q with (inject_Z 0); rewrite <- Zle_Qle; exact M).
  assert (NZ : (0 <= inject_Z (m * n))%Q) by (rewrite inject_Z_mult; apply Qmult_le_0_compat; lra).
  assert (X : near 3 (fl (fl (time_of m n tempo * tps tempo) / inject_Z n)) (inject_Z m)).
  { apply near_fl'. apply (near_m 2 (fl (time_of m n tempo * tps tempo) / inject_Z n) (inject_Z (m * n) / inject_Z n)); [reflexivity|rewrite inject_Z_mult; field; lra|].
    apply near_quot; [lra|]. apply near_fl'. apply (near_m 1 (time_of m n tempo * tps tempo) (inject_Z (m * n) / tps tempo * tps tempo)); [reflexivity|field; lra|].
    apply near_mul; [lra|]. unfold time_of. apply near_fl. apply quot_pos; auto. }
  apply near_bnd in X; [|vm_compute; discriminate]. change (inject_Z (Z.of_nat 3)) with 3%Q in X. rewrite U_eq in X. unfold step_at at 1. set (x := fl (fl (time_of m n tempo * tps tempo) / inject_Z n)) in *. clearbody x.
  apply (nearest_unique x x); [reflexivity|apply round_nearest|]. clear Y R. clearbody m. set (z := inject_Z m) in *.
  assert (B : (- (2 # 5) <= x - z)%Q /\ (x - z <= 2 # 5)%Q) by (split; lra).
  unfold z in *. clear z. split; [apply Qabs_Qle_condition; lra|]. intros E. exfalso. set (z := inject_Z m) in *. clearbody z. destruct (Qlt_le_dec (x - z) 0); [rewrite Qabs_neg in E by lra|rewrite Qabs_pos in E by lra]; lra.
Qed.
