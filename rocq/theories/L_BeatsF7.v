(** Lemmas about M_BeatsF: one tempo change crossed, with rounding. *)
From Coq Require Import Sorted Permutation Lia Lqa Qfield Qabs Qpower Qround.
From Verif Require Import PyBase M_Float M_Beats M_BeatsF S_Beats S_Snap S_ShiftF S_BeatsF L_Base L_Note L_Float L_Float2 L_Snap L_NoteF L_NoteF2 L_UtilsF L_UtilsF2 L_UtilsF3 P_Rounding L_ShiftF L_Beats L_Beats2 L_Beats3 L_BeatsF L_BeatsF2 L_BeatsF3.
Open Scope Q_scope.

Lemma flb : forall z, Qabs (fl z - z) <= Qabs z * u.
Proof.
  intros z. pose proof (fl_rounded z) as R. unfold rounded in R. assert (Y : (Qabs z / inject_Z (2 ^ 53) == Qabs z * u)) by (unfold Qdiv; assert (Z1 : (/ inject_Z (2 ^ 53) == u)) by reflexivity; rewrite Z1; reflexivity).
  rewrite Y in R. exact R.
Qed.

Lemma abs_mult_le : forall a b c, Qabs b <= c -> Qabs (a * b) <= Qabs a * c.
Proof. intros a b c H. rewrite Qabs_Qmult, (Qmult_comm (Qabs a)), (Qmult_comm (Qabs a) c). apply Qmult_le_compat_r; [auto|apply Qabs_nonneg]. Qed.
Lemma abs_sub : forall a b, Qabs a <= Qabs b + Qabs (a - b).
Proof. intros a b. pose proof (Qabs_triangle b (a - b)) as T. setoid_replace (b + (a - b)) with a in T by ring. exact T. Qed.
Lemma abs_tri3 : forall a b c, Qabs (a - c) <= Qabs (a - b) + Qabs (b - c).
Proof. intros a b c. pose proof (Qabs_triangle (a - b) (b - c)) as T. setoid_replace (a - b + (b - c)) with (a - c) in T by ring. exact T. Qed.

Section tempo.
Variables (sig : option tsig) (q : Q).
Hypotheses (G : good sig) (Q0 : 0 < q).
Let P := 60 / bpm_of sig q.
Let c := bpm_of_f sig q.
Lemma P_gt0 : 0 < P.
Proof. apply Qlt_shift_div_l; [apply bpm_pos; auto|lra]. Qed.
Lemma reach_near : forall nb rem, Qabs (reach_f nb rem c - (nb + rem * P)) <= Qabs nb * u + Qabs rem * P * (18 * u).
Proof.
  intros nb rem. pose proof P_gt0 as P0. set (y := 60 / c).
  assert (N : near 3 y P) by (apply near_div; [discriminate|apply bpm_pos; auto|apply bpm_near; auto]).
  apply near_bnd in N; [|cbn; lia]. change (inject_Z (Z.of_nat 3)) with 3 in N. destruct N as [N1 N2].
  assert (C0 : 0 < c) by (apply bpm_f_pos; auto).
  set (z1 := fl (rem * 60)). pose proof (flb (rem * 60)) as F1. fold z1 in F1. rewrite Qabs_Qmult in F1. change (Qabs 60) with 60 in F1.
  assert (E2 : z1 / c == z1 * (y / 60)) by (unfold y; field; lra).
  set (X := fl (z1 / c)). pose proof (flb (z1 / c)) as F2. fold X in F2.
  set (A := Qabs rem) in *. assert (A0 : 0 <= A) by apply Qabs_nonneg. set (W := A * P).
  assert (W0 : 0 <= W) by (apply Qmult_le_0_compat; lra).
  assert (AY : A * y <= W * (1 + 12 * u)).
  { setoid_replace (W * (1 + 12 * u)) with (A * (P + P * (4 * 3 * u))) by (unfold W; ring). rewrite (Qmult_comm A y), (Qmult_comm A (P + _)). apply Qmult_le_compat_r; auto. }
  assert (H1 : Qabs (z1 / c - rem * y) <= W * (1 + 12 * u) * u).
  { rewrite E2. setoid_replace (z1 * (y / 60) - rem * y) with ((z1 - rem * 60) * (y / 60)) by field.
    rewrite Qabs_Qmult. assert (Y0 : 0 <= y / 60) by (apply Qle_shift_div_l; [reflexivity|]; rewrite U_eq in *; lra). rewrite (Qabs_pos (y / 60)) by auto.
    apply Qle_trans with (A * 60 * u * (y / 60)); [apply Qmult_le_compat_r; auto|]. setoid_replace (A * 60 * u * (y / 60)) with (A * y * u) by field. apply Qmult_le_compat_r; [auto|discriminate]. }
  assert (H2 : Qabs (rem * y - rem * P) <= W * (12 * u)).
  { setoid_replace (rem * y - rem * P) with (rem * (y - P)) by ring. setoid_replace (W * (12 * u)) with (A * (P * (12 * u))) by (unfold W; ring). apply abs_mult_le. apply Qabs_Qle_condition. lra. }
  pose proof (abs_tri3 (z1 / c) (rem * y) (rem * P)) as T1.
  assert (RP : Qabs (rem * P) == W) by (rewrite Qabs_Qmult, (Qabs_pos P) by lra; reflexivity).
  pose proof (abs_sub (z1 / c) (rem * P)) as T2. rewrite RP in T2.
  pose proof (abs_tri3 X (z1 / c) (rem * P)) as T3.
  pose proof (abs_sub X (rem * P)) as T4. rewrite RP in T4.
  unfold reach_f. fold z1. fold X. pose proof (flb (nb + X)) as F3. pose proof (Qabs_triangle nb X) as T5.
  pose proof (abs_tri3 (fl (nb + X)) (nb + X) (nb + rem * P)) as T6. setoid_replace (nb + X - (nb + rem * P)) with (X - rem * P) in T6 by ring.
  fold W. generalize dependent (Qabs (fl (nb + X) - (nb + X))). generalize dependent (Qabs (fl (nb + X) - (nb + rem * P))). intros g1 T6 g2. generalize dependent (Qabs (nb + X)). generalize dependent (Qabs (X - rem * P)). generalize dependent (Qabs (X - z1 / c)). generalize dependent (Qabs X). generalize dependent (Qabs (z1 / c - rem * P)). generalize dependent (Qabs (z1 / c)). generalize dependent (Qabs (z1 / c - rem * y)). generalize dependent (Qabs (rem * y - rem * P)). pose proof (Qabs_nonneg nb) as NN. generalize dependent (Qabs nb).
  clear - W0. clearbody W. rewrite U_eq. intros. lra.
Qed.
Lemma ratio_near : forall d, let r := fl (fl d / fl (60 / c)) in Qabs (r * P - d) <= Qabs d * (20 * u).
Proof.
  intros d r. pose proof P_gt0 as P0. pose proof (period_near sig q G Q0) as N. fold c in N. fold P in N. set (p := fl (60 / c)) in *.
  assert (p0 : 0 < p) by (eapply near_pos; eauto).
  assert (N2 : near 4 (P / p) (P / P)) by (apply near_div; auto; lra). assert (PP : P / P == 1) by (field; lra).
  apply near_bnd in N2; [|cbn; lia]. rewrite PP in N2. change (inject_Z (Z.of_nat 4)) with 4 in N2. destruct N2 as [V1 V2]. set (v := P / p) in *.
  pose proof (flb d) as F1. set (d1 := fl d) in *. pose proof (flb (d1 / p)) as F2. fold r in F2.
  set (D := Qabs d) in *. assert (D0 : 0 <= D) by apply Qabs_nonneg. pose proof (abs_sub d1 d) as T1. fold D in T1.
  assert (H1 : Qabs (d1 * v - d1) <= Qabs d1 * (16 * u)).
  { setoid_replace (d1 * v - d1) with (d1 * (v - 1)) by ring. apply abs_mult_le. apply Qabs_Qle_condition. lra. }
  assert (H2 : Qabs (r * P - d1 * v) <= Qabs (d1 * v) * u).
  { assert (E : d1 * v == d1 / p * P) by (unfold v; field; lra). rewrite E. setoid_replace (r * P - d1 / p * P) with ((r - d1 / p) * P) by ring. rewrite !Qabs_Qmult. rewrite (Qabs_pos P) by lra.
    setoid_replace (Qabs (d1 / p) * P * u) with (Qabs (d1 / p) * u * P) by ring. apply Qmult_le_compat_r; [auto|lra]. }
  pose proof (abs_sub (d1 * v) d1) as T2. pose proof (abs_tri3 (r * P) (d1 * v) d1) as T3. pose proof (abs_tri3 (r * P) d1 d) as T4.
  generalize dependent (Qabs (r * P - d)). generalize dependent (Qabs (r * P - d1 * v)). generalize dependent (Qabs (r * P - d1)). generalize dependent (Qabs (d1 * v - d1)). generalize dependent (Qabs (d1 * v)). generalize dependent (Qabs (d1 - d)). generalize dependent (Qabs d1).
  clear - D0. clearbody D. rewrite U_eq. intros. lra.
Qed.
End tempo.

(** ** musical time *)
Definition in_range (sig : option tsig) (lo hi : Q) (q : Q) (rest : list (Q * Q)) : Prop :=
  forall x, x = q \/ In x (map snd rest) -> 0 < x /\ lo <= 60 / bpm_of sig x /\ 60 / bpm_of sig x <= hi.
Definition beats_from (sig : option tsig) (q : Q) (rest : list (Q * Q)) (a b : Q) : Q := rate sig * quarters_from q rest a b.
Lemma linear_piece : forall sig q x, good sig -> 0 < q -> rate sig * (q * x / 60) == x / (60 / bpm_of sig q).
Proof. intros sig q x G Q0. pose proof (bpm_rate sig q) as E. pose proof (rate_pos sig G) as R0. rewrite E. field. split; lra. Qed.
Lemma div_bounds : forall x P lo hi, 0 <= x -> 0 < lo -> lo <= P -> P <= hi -> x / hi <= x / P /\ x / P <= x / lo.
Proof.
  intros x P lo hi X L A B. split; apply Qle_shift_div_l; try lra.
  - apply Qle_trans with (x / hi * hi); [rewrite !(Qmult_comm (x / hi)); apply Qmult_le_compat_r; [auto|apply Qle_shift_div_l; lra]|]. apply Qle_lteq. right. field. lra.
  - apply Qle_trans with (x / P * P); [rewrite !(Qmult_comm (x / P)); apply Qmult_le_compat_r; [auto|apply Qle_shift_div_l; lra]|]. apply Qle_lteq. right. field. lra.
Qed.
Lemma quarters_slope : forall sig lo hi, good sig -> 0 < lo -> forall rest q a x y, in_range sig lo hi q rest -> sortedt rest -> x <= y ->
  (y - x) / hi <= beats_from sig q rest a y - beats_from sig q rest a x /\ beats_from sig q rest a y - beats_from sig q rest a x <= (y - x) / lo.
Proof.
  intros sig lo hi G L0. unfold beats_from. induction rest as [|[t q'] r IH]; intros q a x y IR ST XY; cbn [quarters_from].
  - destruct (IR q (or_introl eq_refl)) as [B0 [B1 B2]]. setoid_replace (rate sig * (q * (y - a) / 60) - rate sig * (q * (x - a) / 60)) with (rate sig * (q * (y - x) / 60)) by field. rewrite linear_piece by auto. apply div_bounds; auto. lra.
  - assert (IR' : in_range sig lo hi q' r) by (intros z [->|Z]; apply IR; right; cbn; auto).
    pose proof (StronglySorted_inv ST) as [ST1 _]. destruct (Qle_bool t a) eqn:TA; [apply IH; auto|]. apply Qle_bool_false in TA.
    destruct (IR q (or_introl eq_refl)) as [B0 [B1 B2]].
    destruct (Qle_bool y t) eqn:YT, (Qle_bool x t) eqn:XT.
    + setoid_replace (rate sig * (q * (y - a) / 60) - rate sig * (q * (x - a) / 60)) with (rate sig * (q * (y - x) / 60)) by field. rewrite linear_piece by auto. apply div_bounds; auto. lra.
    + apply Qle_bool_iff in YT. apply Qle_bool_false in XT. lra.
    + apply Qle_bool_false in YT. apply Qle_bool_iff in XT. destruct (IH q' t t y IR' ST1 ltac:(lra)) as [I1 I2]. pose proof (quarters_empty r q' t t ltac:(reflexivity)) as E0.
      setoid_replace (rate sig * (q * (t - a) / 60 + quarters_from q' r t y) - rate sig * (q * (x - a) / 60)) with (rate sig * (q * (t - x) / 60) + (rate sig * quarters_from q' r t y - rate sig * quarters_from q' r t t)) by (rewrite E0; field).
      rewrite linear_piece by auto. destruct (div_bounds (t - x) _ lo hi ltac:(lra) L0 B1 B2) as [J1 J2].
      assert (HI0 : 0 < hi) by lra.
      setoid_replace ((y - x) / hi) with ((t - x) / hi + (y - t) / hi) by (field; lra). setoid_replace ((y - x) / lo) with ((t - x) / lo + (y - t) / lo) by (field; lra). lra.
    + apply Qle_bool_false in YT, XT. destruct (IH q' t x y IR' ST1 XY) as [I1 I2].
      setoid_replace (rate sig * (q * (t - a) / 60 + quarters_from q' r t y) - rate sig * (q * (t - a) / 60 + quarters_from q' r t x)) with (rate sig * quarters_from q' r t y - rate sig * quarters_from q' r t x) by ring. auto.
Qed.
Lemma quarters_add : forall rest q a y z, sortedt rest -> a <= y -> y <= z -> quarters_from q rest a y + quarters_from q rest y z == quarters_from q rest a z.
Proof.
  induction rest as [|[t q'] r IH]; intros q a y z ST AY YZ; cbn [quarters_from].
  - field.
  - pose proof (StronglySorted_inv ST) as [ST1 _]. destruct (Qle_bool t a) eqn:TA.
    + apply Qle_bool_iff in TA. replace (Qle_bool t y) with true by (symmetry; apply Qle_bool_iff; lra). apply IH; auto.
    + apply Qle_bool_false in TA. destruct (Qle_bool t y) eqn:TY.
      * apply Qle_bool_iff in TY. destruct (Qle_bool y t) eqn:YT.
        -- apply Qle_bool_iff in YT. assert (E : y == t) by lra. destruct (Qle_bool z t) eqn:ZT.
           ++ apply Qle_bool_iff in ZT. rewrite (quarters_empty r q' y z) by lra. setoid_replace z with t by lra. rewrite E. ring.
           ++ rewrite (quarters_compat r q' y t z z) by (auto; reflexivity). rewrite E. ring.
        -- apply Qle_bool_false in YT. replace (Qle_bool z t) with false by (symmetry; apply Qle_bool_false; lra). rewrite <- Qplus_assoc. rewrite (IH q' t y z); auto; try lra.
      * apply Qle_bool_false in TY. replace (Qle_bool y t) with true by (symmetry; apply Qle_bool_iff; lra). destruct (Qle_bool z t) eqn:ZT; [field|]. field.
Qed.
