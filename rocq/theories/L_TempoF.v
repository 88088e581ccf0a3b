(** Tempo conversions in double precision. *)
From Coq Require Import QArith Qabs Qround Lia Lqa.
From Verif Require Import PyBase L_Base M_Note L_Note M_Events M_Float L_Float L_Float2 L_NoteF L_NoteF2 L_UtilsF L_UtilsF2 L_UtilsF3 L_Song2 L_Snap S_TempoF M_TempoF.
Open Scope Q_scope.

Lemma near_parts : forall k a b, near k a b -> (Z.of_nat k <= 2 ^ 51)%Z -> parts (Z.of_nat k) a b.
Proof. intros k a b N K. unfold parts. apply near_abs; auto. Qed.
Lemma pos_not0 : forall x, 0 < x -> Qeq_bool x 0 = false.
Proof. intros x H. destruct (Qeq_bool x 0) eqn:E; auto. apply Qeq_bool_iff in E. lra. Qed.
Lemma div_pos : forall a b, 0 < a -> 0 < b -> 0 < a / b.
Proof. intros. apply Qlt_shift_div_l; auto. lra. Qed.
Lemma tempo_near : forall us, 0 < us -> exists q, tempo_to_qpm_f us = Ok q /\ near 2 q (60000000 / us) /\ 0 < q.
Proof.
  intros us U. unfold tempo_to_qpm_f. assert (S0 : 0 < us / 1000000) by (apply div_pos; [auto|reflexivity]). pose proof (fl_gt0 _ S0) as S1. rewrite (pos_not0 _ S1). eexists. split; [reflexivity|]. split; [|apply fl_gt0; apply div_pos; [reflexivity|auto]].
  apply near_fl'. eapply near_m; [reflexivity| |apply (near_div 1 (fl (us / 1000000)) (us / 1000000) 60); [discriminate|auto|apply near_fl; lra]]. field. lra.
Qed.
Lemma spt_near : forall t, 0 < t_qpm t -> (0 < t_resolution t)%Z -> near 3 (seconds_per_tick_f t) (60 / (t_qpm t * inject_Z (t_resolution t))).
Proof.
  intros t Q0 R. unfold seconds_per_tick_f. rewrite (pos_not0 _ Q0). assert (R' : 0 < inject_Z (t_resolution t)) by (unfold Qlt; cbn; lia).
  assert (P0 : 0 < t_qpm t * inject_Z (t_resolution t)) by (apply Qmult_lt_0_compat; auto). set (p := t_qpm t * inject_Z (t_resolution t)) in *. clearbody p.
  apply near_fl'. eapply near_m; [reflexivity| |apply (near_div 2 (fl (fl p / 60)) (p / 60) 1); [discriminate|apply div_pos; [auto|reflexivity]|]].
  - field. lra.
  - apply near_fl'. apply near_quot; [reflexivity|]. apply near_fl. lra.
Qed.
Lemma spq_near : forall t, 0 < t_qpm t -> (0 < t_resolution t)%Z -> near 4 (seconds_per_quarter_f t) (60 / t_qpm t).
Proof.
  intros t Q0 R. assert (R' : 0 < inject_Z (t_resolution t)) by (unfold Qlt; cbn; lia). unfold seconds_per_quarter_f. apply near_fl'.
  eapply near_m; [reflexivity| |apply near_mul; [apply Qlt_le_weak; exact R'|apply spt_near; auto]]. field. split; lra.
Qed.
Lemma near_mul2 : forall j k a b c d, near j a b -> near k c d -> near (j + k) (a * c) (b * d).
Proof.
  intros j k a b c d N M. eapply near_trans; [apply near_mul; [apply M|exact N]|].
  eapply near_m; [| |apply (near_mul k c d b); [apply N|exact M]]; ring.
Qed.
Lemma ppq_near : forall ppq us ticks, 0 < ppq -> 0 < us -> 0 < ticks -> exists q, ppq_to_qpm_f ppq us ticks = Ok q /\ near 4 q (60 / ppq).
Proof.
  intros ppq us ticks P U T. unfold ppq_to_qpm_f. assert (D : 0 < fl (fl (ticks * us) * fl (1 # 1000000))) by (apply fl_gt0; apply Qmult_lt_0_compat; apply fl_gt0; [apply Qmult_lt_0_compat; auto|reflexivity]).
  set (d := fl (fl (ticks * us) * fl (1 # 1000000))) in *. clearbody d. rewrite (pos_not0 _ D).
  assert (I : 0 < 1 / d) by (apply div_pos; [reflexivity|auto]). assert (M : 0 < 1 / d * ppq) by (apply Qmult_lt_0_compat; auto).
  assert (N : near 2 (fl (fl (1 / d) * ppq)) (1 / d * ppq)) by (apply near_fl'; apply near_mul; [lra|]; apply near_fl; lra).
  pose proof (near_pos _ _ _ N M) as QP. rewrite (pos_not0 _ QP). eexists. split; [reflexivity|]. apply near_fl'.
  eapply near_m; [reflexivity| |apply near_quot; [exact D|]; apply near_fl'; apply near_div; [|exact M|exact N]; discriminate]. field. split; lra.
Qed.
Lemma sps_near : forall a b, 0 <= a -> 0 <= b -> near 2 (fl (fl (a * b) / 60)) (a * b / 60).
Proof. intros a b A B. apply near_fl'. apply near_quot; [reflexivity|]. apply near_fl. apply Qmult_le_0_compat; auto. Qed.
Lemma sps3_near : forall spq bpm d, 0 <= spq -> 0 <= bpm -> 0 < d -> near 3 (from_bpm_spq_to_sps_f spq bpm d) (spq * (bpm / d) / 60).
Proof.
  intros spq bpm d A B D. unfold from_bpm_spq_to_sps_f. apply near_fl'. apply near_quot; [reflexivity|]. apply near_fl'.
  eapply near_m; [| |apply (near_mul 1 (fl (bpm / d)) (bpm / d) spq); [auto|apply near_fl; apply Qle_shift_div_l; lra]]; ring.
Qed.
Lemma bq_near : forall bpm beats, 0 <= bpm -> 0 <= beats -> near 2 (bpm_to_qpm_f bpm beats) (bpm * beats / 60).
Proof.
  intros bpm beats A B. unfold bpm_to_qpm_f. apply near_fl'. eapply near_m; [reflexivity| |apply (near_mul 1 (fl (bpm / 60)) (bpm / 60) beats); [auto|apply near_fl; apply Qle_shift_div_l; [reflexivity|lra]]]. field.
Qed.
(* scaling by a power of two *)
Lemma fl_P : forall x k, 0 < x -> fl (x * P k) == fl x * P k.
Proof.
  intros x k X. pose proof (P_pos k) as K. assert (XP : 0 < x * P k) by (apply Qmult_lt_0_compat; auto). rewrite (fl_is_pos _ X), (fl_is_pos _ XP), !fl_pos_val.
  destruct (last_place_spec x X) as [A B]. set (e := last_place x) in *.
  assert (E : last_place (x * P k) = (e + k)%Z).
  { apply last_place_unique; auto.
    - replace (e + k + 52)%Z with (e + 52 + k)%Z by lia. rewrite P_plus. apply Qmul_le; [lra|auto].
    - replace (e + k + 53)%Z with (e + 53 + k)%Z by lia. rewrite P_plus. apply Qmul_lt; auto. }
  rewrite E. rewrite (rhe_m (x * P k * P (- (e + k))) (x * P (- e))); [rewrite P_plus; ring|].
  replace (- (e + k))%Z with (- e + - k)%Z by lia. rewrite P_plus. setoid_replace (x * P k * (P (- e) * P (- k))) with (x * P (- e) * (P k * P (- k))) by ring. rewrite P_inv. ring.
Qed.
Lemma P_2 : P 2 == 4. Proof. reflexivity. Qed.
Lemma P_m2 : P (-2) == 1 # 4. Proof. reflexivity. Qed.
Lemma double_scaled : forall v k, pos_double v -> fl (v * P k) == v * P k.
Proof. intros v k [V F]. rewrite fl_P by auto. rewrite F. reflexivity. Qed.
Lemma fl_pm : forall x y, 0 < x -> x == y -> fl x == fl y.
Proof. intros x y X E. rewrite (fl_m0 x y); [reflexivity|lra|auto]. Qed.
Lemma bpm_back : forall t v, pos_double v -> t_qpm (t_set_bpm_f t v) == 4 * v /\ t_bpm_f (t_set_bpm_f t v) == v.
Proof.
  intros t v V. pose proof V as [V0 _]. assert (E : fl (v * 4) == v * 4). { rewrite (fl_pm (v * 4) (v * P 2)); [rewrite double_scaled by auto; rewrite P_2; reflexivity|lra|rewrite P_2; reflexivity]. }
  cbn [t_set_bpm_f t_qpm]. split; [rewrite E; ring|]. unfold t_bpm_f. cbn [t_set_bpm_f t_qpm].
  rewrite (fl_pm (fl (v * 4) / 4) v); [apply V| |rewrite E; field]. apply div_pos; [rewrite E; lra|reflexivity].
Qed.
Lemma bpm_four : forall t, pos_double (t_qpm t) -> t_bpm_f t * 4 == t_qpm t.
Proof.
  intros t V. pose proof V as [V0 _]. unfold t_bpm_f. rewrite (fl_pm (t_qpm t / 4) (t_qpm t * P (-2))); [rewrite double_scaled by auto; rewrite P_m2; field|apply div_pos; [auto|reflexivity]|rewrite P_m2; field].
Qed.
Lemma rhe_unique : forall x z, Qabsb (x - inject_Z z) < 1 # 2 -> round_half_even x = z.
Proof.
  intros x z H. pose proof (rhe_bounds x) as [A B]. set (r := round_half_even x) in *. clearbody r.
  assert (L : inject_Z z - 1 < inject_Z r /\ inject_Z r < inject_Z z + 1) by (destruct (Qabsb_spec (x - inject_Z z)) as [[P Q] | [P Q]]; rewrite Q in H; split; lra).
  destruct L as [L1 L2]. unfold Z.sub in *. change 1 with (inject_Z 1) in L1, L2. assert (E1 : inject_Z z - inject_Z 1 == inject_Z (z - 1)) by (unfold Z.sub; rewrite inject_Z_plus, inject_Z_opp; reflexivity).
  rewrite E1 in L1. rewrite <- inject_Z_plus in L2. rewrite <- Zlt_Qlt in L1, L2. lia.
Qed.
Lemma tempo_back : forall us q, (1 <= us <= 2 ^ 48)%Z -> tempo_to_qpm_f (inject_Z us) = Ok q -> round_half_even (fl (60000000 / q)) = us.
Proof.
  intros us q U H. assert (U0 : 0 < inject_Z us) by (unfold Qlt; cbn; lia). destruct (tempo_near _ U0) as (q' & E & N & Q0). rewrite E in H. injection H as <-.
  assert (N3 : near 3 (fl (60000000 / q')) (inject_Z us)).
  { apply near_fl'. eapply near_m; [reflexivity| |apply (near_div 2 q' (60000000 / inject_Z us) 60000000); [discriminate|apply div_pos; [reflexivity|auto]|exact N]]. field. lra. }
  pose proof (near_parts 3 _ _ N3 ltac:(cbv; discriminate)) as A. unfold parts in A. apply rhe_unique. eapply Qle_lt_trans; [exact A|].
  assert (B : inject_Z us <= inject_Z (2 ^ 48)) by (rewrite <- Zle_Qle; lia). change (inject_Z (2 ^ 48)) with (281474976710656 # 1) in B.
  change (inject_Z (Z.of_nat 3) / inject_Z (2 ^ 51)) with (3 # 2251799813685248). lra.
Qed.
Lemma tempo_anti : forall a b p q, 0 < a -> a <= b -> tempo_to_qpm_f a = Ok p -> tempo_to_qpm_f b = Ok q -> q <= p.
Proof.
  intros a b p q A B HA HB. unfold tempo_to_qpm_f in *. assert (SA : 0 < fl (a / 1000000)) by (apply fl_gt0; apply div_pos; [auto|reflexivity]). assert (SB : fl (a / 1000000) <= fl (b / 1000000)) by (apply fl_mono0; [apply Qle_shift_div_l; [reflexivity|lra]|unfold Qdiv; apply Qmult_le_compat_r; [auto|discriminate]]).
  rewrite pos_not0 in HA by auto. rewrite pos_not0 in HB by lra. injection HA as <-. injection HB as <-. set (s := fl (a / 1000000)) in *. set (s' := fl (b / 1000000)) in *. clearbody s s'.
  apply fl_mono0; [apply Qle_shift_div_l; lra|]. apply Qle_shift_div_l; [auto|]. setoid_replace (60 / s' * s) with (60 * (s / s')) by (field; lra).
  assert (s / s' <= 1) by (apply Qle_shift_div_r; lra). lra.
Qed.
(* whole quarters per minute *)
Definition whole_ok (d : Z) : bool :=
  if (60000000 mod d =? 0)%Z then match tempo_to_qpm_f (inject_Z (60000000 / d)) with Ok q => (Qfloor q =? d)%Z | Err _ => false end else true.
Fixpoint all_whole (n : nat) (d : Z) : bool := match n with O => true | S n => whole_ok d && all_whole n (d + 1) end.
Lemma all_whole_spec : forall n d k, all_whole n d = true -> (d <= k < d + Z.of_nat n)%Z -> whole_ok k = true.
Proof.
  induction n as [|n IH]; intros d k H K; [lia|]. cbn [all_whole] in H. apply andb_true_iff in H as [H1 H2]. destruct (Z.eq_dec k d) as [-> |]; auto. apply (IH (d + 1)%Z); auto. lia.
Qed.
Lemma whole_table : all_whole (Z.to_nat 46838) 1 = true. Proof. vm_compute. reflexivity. Qed.
Lemma whole_part : forall us q, (1280 < us)%Z -> tempo_to_qpm_f (inject_Z us) = Ok q -> Qfloor q = (60000000 / us)%Z.
Proof.
  intros us q U H. assert (U0 : 0 < inject_Z us) by (unfold Qlt; cbn; lia). destruct (tempo_near _ U0) as (q' & E & N & Q0). rewrite E in H. injection H as <-.
  pose proof (Z.div_mod 60000000 us ltac:(lia)) as DM. pose proof (Z.mod_pos_bound 60000000 us ltac:(lia)) as MB. set (d := (60000000 / us)%Z) in *. set (m := (60000000 mod us)%Z) in *.
  destruct (Z.eq_dec m 0) as [M|M].
  - assert (D1 : (1 <= d)%Z) by (destruct (Z.le_gt_cases 1 d); auto; nia). assert (D2 : (d <= 46838)%Z) by nia.
    pose proof (all_whole_spec _ 1 d whole_table ltac:(lia)) as W. unfold whole_ok in W.
    assert (DD : (60000000 / d = us)%Z) by (symmetry; apply Z.div_unique_exact; nia). assert (DR : (60000000 mod d = 0)%Z) by (symmetry; apply (Z.mod_unique 60000000 d us); nia).
    rewrite DR, DD, E in W. cbn in W. apply Z.eqb_eq in W. exact W.
  - pose proof (near_parts 2 _ _ N ltac:(cbv; discriminate)) as A. unfold parts in A.
    assert (X : 60000000 == inject_Z us * inject_Z d + inject_Z m) by (change 60000000 with (inject_Z 60000000); rewrite <- inject_Z_mult, <- inject_Z_plus, <- DM; reflexivity).
    assert (M1 : 1 <= inject_Z m) by (change 1 with (inject_Z 1); rewrite <- Zle_Qle; lia). assert (M2 : inject_Z m <= inject_Z us - 1). { assert (m + 1 <= us)%Z by lia. rewrite Zle_Qle, inject_Z_plus in H. change (inject_Z 1) with 1 in H. lra. }
    assert (QU : Qabsb (q' - 60000000 / inject_Z us) * inject_Z us <= 60000000 * (2 # 2251799813685248)).
    { apply Qle_trans with (60000000 / inject_Z us * (inject_Z (Z.of_nat 2) / inject_Z (2 ^ 51)) * inject_Z us); [apply Qmult_le_compat_r; lra|]. change (inject_Z (Z.of_nat 2) / inject_Z (2 ^ 51)) with (2 # 2251799813685248).
      setoid_replace (60000000 / inject_Z us * (2 # 2251799813685248) * inject_Z us) with (60000000 * (2 # 2251799813685248)) by (field; lra). apply Qle_refl. }
    assert (QX : Qabsb ((q' - inject_Z d) * inject_Z us - inject_Z m) < 1 # 2).
    { assert (E2 : (q' - inject_Z d) * inject_Z us - inject_Z m == (q' - 60000000 / inject_Z us) * inject_Z us).
      { setoid_replace ((q' - 60000000 / inject_Z us) * inject_Z us) with (q' * inject_Z us - 60000000) by (field; lra). rewrite X. ring. }
      rewrite Qabsb_Qabs in *. rewrite (Qabs_wd _ _ E2), Qabs_Qmult, (Qabs_pos (inject_Z us)) by lra. lra. }
    set (us' := inject_Z us) in *. apply Qfloor_unique.
    + destruct (Qlt_le_dec q' (inject_Z d)) as [L|L]; auto. exfalso.
      assert ((inject_Z d - q') * us' >= 0) by (apply Qmult_le_0_compat; lra). destruct (Qabsb_spec ((q' - inject_Z d) * us' - inject_Z m)) as [[P1 R1] | [P1 R1]]; rewrite R1 in QX; lra.
    + destruct (Qlt_le_dec q' (inject_Z d + 1)) as [L|L]; auto. exfalso.
      assert ((q' - inject_Z d - 1) * us' >= 0) by (apply Qmult_le_0_compat; lra). destruct (Qabsb_spec ((q' - inject_Z d) * us' - inject_Z m)) as [[P1 R1] | [P1 R1]]; rewrite R1 in QX; lra.
Qed.
(* one rounding only when dividing by a power of two *)
Lemma fl_double : forall x, 0 < x -> pos_double (fl x).
Proof. intros x X. split; [apply fl_gt0; auto|]. rewrite fl_idem; [reflexivity|lra]. Qed.
Lemma fl_half : forall x k, 0 < x -> (0 <= k)%Z -> fl (fl x / inject_Z (2 ^ k)) == fl (x / inject_Z (2 ^ k)).
Proof.
  intros x k X K. assert (PK : 0 < P k) by apply P_pos. assert (E : forall z, z / inject_Z (2 ^ k) == z * P (- k)).
  { intro z. rewrite P_Z by auto. setoid_replace (z * P (- k)) with (z / P k * (P k * P (- k))) by (field; lra). rewrite P_inv. ring. }
  pose proof (fl_double x X) as D. assert (M : 0 < P (- k)) by apply P_pos.
  rewrite (fl_pm (fl x / inject_Z (2 ^ k)) (fl x * P (- k))); [|rewrite E; apply Qmult_lt_0_compat; [apply D|auto]|apply E].
  rewrite (fl_pm (x / inject_Z (2 ^ k)) (x * P (- k))); [|rewrite E; apply Qmult_lt_0_compat; auto|apply E].
  rewrite double_scaled by auto. rewrite fl_P by auto. reflexivity.
Qed.
Lemma fl_mult_pow : forall v k, pos_double v -> (0 <= k)%Z -> fl (v * inject_Z (2 ^ k)) == v * inject_Z (2 ^ k).
Proof.
  intros v k V K. pose proof (P_pos k). rewrite (fl_pm (v * inject_Z (2 ^ k)) (v * P k)); [rewrite double_scaled by auto; rewrite P_Z by auto; reflexivity| |rewrite P_Z by auto; reflexivity].
  rewrite P_Z by auto. apply Qmult_lt_0_compat; [apply V|auto].
Qed.
Lemma sps_whole : forall a b k, (0 <= a)%Z -> (0 <= b)%Z -> (a * b = 60 * k)%Z -> (60 * k <= 2 ^ 53)%Z -> fl (fl (inject_Z a * inject_Z b) / 60) == inject_Z k.
Proof.
  intros a b k A B E L. assert (K : (0 <= k)%Z) by nia.
  assert (F : fl (inject_Z a * inject_Z b) == inject_Z (60 * k)) by (apply fl_int; [lia|rewrite <- inject_Z_mult, E; reflexivity]).
  apply fl_int; [lia|]. rewrite F, inject_Z_mult. change (inject_Z 60) with 60. field.
Qed.
Lemma np_close : forall bpm beats, 0 <= bpm -> 0 <= beats -> let x := bpm * beats / 60 in
  Qabsb (bpm_to_qpm_np_f bpm beats - x) <= (1 # 20000000000) + (x + 1) * (4 # 2251799813685248).
Proof.
  intros bpm beats A B x. unfold bpm_to_qpm_np_f, round10_f. pose proof (sps_near bpm beats A B) as N. fold x in N. set (y := fl (fl (bpm * beats) / 60)) in *. clearbody y.
  assert (X0 : 0 <= x) by (unfold x; apply Qle_shift_div_l; [reflexivity|]; assert (0 <= bpm * beats) by (apply Qmult_le_0_compat; auto); lra). clearbody x. clear A B bpm beats.
  assert (N3 : near 3 (fl (y * 10000000000)) (x * 10000000000)) by (apply near_fl'; apply near_mul; [discriminate|auto]).
  pose proof (near_bnd 3 _ _ ltac:(cbv; discriminate) N3) as [B1 B2]. set (z := fl (y * 10000000000)) in *. assert (Z0 : 0 <= z) by apply N3. clearbody z. clear N N3 y.
  pose proof (rhe_bounds z) as [R1 R2]. pose proof (rhe_nonneg z Z0) as R0. set (r := round_half_even z) in *. clearbody r. assert (RN : 0 <= inject_Z r) by (change 0 with (inject_Z 0); rewrite <- Zle_Qle; auto).
  set (w := inject_Z r) in *. clearbody w. assert (W0 : 0 <= w / 10000000000) by (apply Qle_shift_div_l; [reflexivity|lra]).
  destruct (fl_err _ W0) as [F1 F2]. set (f := fl (w / 10000000000)) in *. clearbody f.
  assert (E : w / 10000000000 == w * (1 # 10000000000)) by (unfold Qdiv; reflexivity). rewrite E in *.
  change (inject_Z (Z.of_nat 3)) with 3 in *. rewrite U_eq in *. rewrite Qabsb_Qabs. apply Qabs_Qle_condition. split; lra.
Qed.
