From Coq Require Import Qround Qabs Lqa Lia ZArith QArith.
From Verif Require Import PyBase L_Base M_Note S_Note L_Note L_Note2 M_NoteExtra S_NoteExtra.
Open Scope Z_scope.

Lemma step_lengths : forall n sps,
  ((n_qs n < 0)%Q \/ (n_qe n < 0)%Q -> n_step_duration n = Err ValueError /\ n_step_seconds n sps = Err ValueError) /\
  ((0 <= n_qs n)%Q -> (0 <= n_qe n)%Q ->
    n_step_duration n = Ok (n_qe n - n_qs n + 1)%Q /\
    (sps <= 0 -> n_step_seconds n sps = Err ValueError) /\
    (0 < sps -> exists r, n_step_seconds n sps = Ok r /\ (r * inject_Z sps == n_qe n - n_qs n)%Q)).
Proof.
  intros n sps. unfold n_step_duration, n_step_seconds, n_is_quantized. split.
  - intros [H|H].
    + rewrite (Qle_bool_ff 0 (n_qs n)) by lra. auto.
    + rewrite (Qle_bool_ff 0 (n_qe n)) by lra. rewrite andb_false_r. auto.
  - intros H1 H2. rewrite (proj2 (Qle_bool_iff 0 (n_qs n))), (proj2 (Qle_bool_iff 0 (n_qe n))) by auto. cbn [andb negb].
    split; auto. split; intros Hs.
    + destruct (Z.leb_spec sps 0); [reflexivity|lia].
    + destruct (Z.leb_spec sps 0); [lia|]. eexists; split; [reflexivity|]. field.
      intro E. change 0%Q with (inject_Z 0) in E. apply (proj1 (inject_Z_injective _ _)) in E. lia.
Qed.

Lemma halfaway_near : forall x, (Qabs (inject_Z (round_half_away x) - x) <= 1 # 2)%Q /\
  (Qabs (inject_Z (round_half_away x) - x) == 1 # 2 -> Qabs x < Qabs (inject_Z (round_half_away x)))%Q.
Proof.
  intro x. unfold round_half_away. qcase (Qltb x 0).
  - destruct (Qfloor_bounds (- x + (1 # 2))) as [A B]. set (f := Qfloor (- x + (1 # 2))) in *. clearbody f.
    rewrite inject_Z_opp. 
    split; [apply Qabs_Qle_condition; split; lra|]. intro EE.
    assert (E2 : (- inject_Z f - x == 1 # 2 \/ - inject_Z f - x == - (1 # 2))%Q).
    { revert EE. apply Qabs_case; intros; [left|right]; lra. }
    rewrite (Qabs_neg x) by lra. rewrite (Qabs_neg (- inject_Z f)) by (destruct E2; lra). destruct E2; lra.
  - destruct (Qfloor_bounds (x + (1 # 2))) as [A B]. set (f := Qfloor (x + (1 # 2))) in *. clearbody f.
    split; [apply Qabs_Qle_condition; split; lra|]. intro EE.
    assert (E2 : (inject_Z f - x == 1 # 2 \/ inject_Z f - x == - (1 # 2))%Q).
    { revert EE. apply Qabs_case; intros; [left|right]; lra. }
    rewrite (Qabs_pos x) by lra. rewrite (Qabs_pos (inject_Z f)) by (destruct E2; lra). destruct E2; lra.
Qed.
Lemma int_dist : forall (a b : Z) (x : Q), (Qabs (inject_Z a - x) <= 1 # 2)%Q -> (Qabs (inject_Z a - x) <= Qabs (inject_Z b - x))%Q.
Proof.
  intros a b x H. destruct (Z.eq_dec a b) as [->|N]; [apply Qle_refl|].
  apply Qabs_Qle_condition in H. destruct H as [H1 H2].
  destruct (Z_lt_le_dec a b) as [L|L].
  - assert (K : (inject_Z (a + 1) <= inject_Z b)%Q) by (rewrite <- Zle_Qle; lia).
    rewrite inject_Z_plus in K. change (inject_Z 1) with 1%Q in K.
    apply Qle_trans with (1 # 2)%Q; [apply Qabs_Qle_condition; split; lra|].
    apply Qle_trans with (inject_Z b - x)%Q; [lra|apply Qle_Qabs].
  - assert (K : (inject_Z (b + 1) <= inject_Z a)%Q) by (rewrite <- Zle_Qle; lia).
    rewrite inject_Z_plus in K. change (inject_Z 1) with 1%Q in K.
    apply Qle_trans with (1 # 2)%Q; [apply Qabs_Qle_condition; split; lra|].
    apply Qle_trans with (- (inject_Z b - x))%Q; [lra|rewrite <- Qabs_opp; apply Qle_Qabs].
Qed.
Lemma abs_div5 : forall a x, (Qabs (a / 100000 - x) == Qabs (a - x * 100000) / 100000)%Q.
Proof.
  intros a x. setoid_replace (a / 100000 - x)%Q with ((a - x * 100000) * (1 # 100000))%Q by field.
  rewrite Qabs_Qmult. change (Qabs (1 # 100000)) with (1 # 100000)%Q. field.
Qed.
Lemma steps_seconds : forall steps sps,
  (sps = 0 -> steps_to_seconds steps sps = Err ZeroDivisionError) /\
  (sps <> 0 -> exists r, steps_to_seconds steps sps = Ok r /\ nearest_multiple 100000 (inject_Z steps / inject_Z sps) r).
Proof.
  intros steps sps. unfold steps_to_seconds. split; intro H.
  - subst. reflexivity.
  - destruct (Z.eqb_spec sps 0); [lia|]. eexists; split; [reflexivity|].
    remember (inject_Z steps / inject_Z sps)%Q as x eqn:EX. clear EX.
    destruct (halfaway_near (x * 100000)) as [A B].
    set (k := round_half_away (x * 100000)) in *. clearbody k.
    unfold nearest_multiple. change (inject_Z (Zpos 100000)) with (100000)%Q.
    split; [exists k; reflexivity|]. split.
    + intro k2. rewrite !abs_div5. apply Qmult_le_compat_r; [|discriminate]. apply int_dist; auto.
    + rewrite abs_div5. intro E.
      assert (E2 : (Qabs (inject_Z k - x * 100000) == 1 # 2)%Q).
      { setoid_replace (Qabs (inject_Z k - x * 100000)) with ((Qabs (inject_Z k - x * 100000) / 100000) * 100000)%Q by field.
        rewrite E. reflexivity. }
      specialize (B E2). rewrite Qabs_Qmult in B. change (Qabs 100000) with 100000%Q in B.
      unfold Qdiv. rewrite Qabs_Qmult. change (Qabs (/ 100000)) with (1 # 100000)%Q. lra.
Qed.

Lemma floor_is : forall x k, (inject_Z k <= x)%Q -> (x < inject_Z k + 1)%Q -> Qfloor x = k.
Proof.
  intros x k H1 H2. destruct (Qfloor_bounds x) as [A B].
  assert (C : (inject_Z (Qfloor x) < inject_Z (k + 1))%Q) by (rewrite inject_Z_plus; change (inject_Z 1) with 1%Q; lra).
  assert (D : (inject_Z k < inject_Z (Qfloor x + 1))%Q) by (rewrite inject_Z_plus; change (inject_Z 1) with 1%Q; lra).
  rewrite <- Zlt_Qlt in C, D. lia.
Qed.
Lemma steps_round_trip : forall steps sps r, 0 <= steps -> 0 < sps < 100000 -> steps_to_seconds steps sps = Ok r ->
  quantize_step r sps (1 # 2) true = Ok steps.
Proof.
  intros steps sps r H0 [H1 H2] H. unfold steps_to_seconds in H. destruct (Z.eqb_spec sps 0); [lia|].
  apply Ok_inj in H. subst r. unfold quantize_step.
  destruct (Z.leb_spec sps 0); [lia|]. change (Qle_bool (1 # 2) 0) with false. cbv iota zeta.
  assert (P : (0 < inject_Z sps)%Q) by (change 0%Q with (inject_Z 0); rewrite <- Zlt_Qlt; auto).
  assert (P2 : (inject_Z sps <= 99999)%Q) by (change 99999%Q with (inject_Z 99999); rewrite <- Zle_Qle; lia).
  remember (inject_Z steps / inject_Z sps)%Q as x eqn:EX.
  assert (X : (x * inject_Z sps == inject_Z steps)%Q) by (subst x; field; lra).
  destruct (halfaway_near (x * 100000)) as [A _]. set (k := round_half_away (x * 100000)) in *. clearbody k.
  apply Qabs_Qle_condition in A. destruct A as [A1 A2].
  assert (E : (inject_Z k / 100000 * inject_Z sps - inject_Z steps == (inject_Z k - x * 100000) * (inject_Z sps / 100000))%Q).
  { rewrite <- X. field. }
  assert (W : (0 < inject_Z sps / 100000 /\ inject_Z sps / 100000 < 1)%Q).
  { split; [apply Qlt_shift_div_l; lra|apply Qlt_shift_div_r; lra]. }
  destruct W as [W1 W2].
  assert (F : Qfloor (inject_Z k / 100000 * inject_Z sps + (1 - (1 # 2))) = steps).
  { remember (inject_Z k / 100000 * inject_Z sps)%Q as y. remember (inject_Z k - x * 100000)%Q as d. remember (inject_Z sps / 100000)%Q as w.
    apply floor_is; nra. }
  rewrite F. f_equal. lia.
Qed.

(** Beats. *)
Lemma beat_lengths : forall n tempo, has_meter n ->
  ((tempo == 0)%Q -> n_beat_duration n tempo = Err ZeroDivisionError /\ n_duration_in_seconds n tempo = Err ZeroDivisionError) /\
  (~ (tempo == 0)%Q -> exists b d, n_beat_duration n tempo = Ok b /\ n_duration_in_seconds n tempo = Ok d /\
     (b * tempo * inject_Z (n_den n) == 60 * inject_Z (n_num n))%Q /\
     (d * tempo == 60 * (n_end n - n_start n))%Q).
Proof.
  intros n tempo [M1 M2]. unfold n_beat_duration, n_duration_in_seconds. split; intro H.
  - rewrite (Qeq_eq_bool _ _ H). auto.
  - destruct (Qeq_bool tempo 0) eqn:E; [apply Qeq_bool_eq in E; contradiction|].
    do 2 eexists. split; [reflexivity|]. split; [reflexivity|]. split.
    + field. split; auto. intro K. change 0%Q with (inject_Z 0) in K. apply (proj1 (inject_Z_injective _ _)) in K. lia.
    + unfold n_duration. field. auto.
Qed.

Lemma diff_arith : forall a st i k, Forall (fun d => d == st)%Q
   (np_diff (map (fun i => (a + inject_Z (Z.of_nat i) * st)%Q) (seq i k))).
Proof.
  intros a st i k. revert i. induction k as [|k IH]; intro i; [constructor|].
  cbn [seq map]. destruct k as [|k]; [constructor|].
  cbn [np_diff]. cbn [seq map] in *. constructor; [|apply IH].
  rewrite Nat2Z.inj_succ. unfold Z.succ. rewrite inject_Z_plus. change (inject_Z 1) with 1%Q. ring.
Qed.
Lemma diff_len : forall l, List.length (np_diff l) = Nat.pred (List.length l).
Proof. induction l as [|a [|b l] IH]; auto. cbn [np_diff List.length] in *. rewrite IH. reflexivity. Qed.
Lemma sum_const : forall l st acc, Forall (fun d => d == st)%Q l ->
  (fold_left Qplus l acc == acc + inject_Z (Z.of_nat (List.length l)) * st)%Q.
Proof.
  induction l as [|x l IH]; intros st acc F; cbn [fold_left List.length].
  - change (inject_Z (Z.of_nat 0)) with 0%Q. ring.
  - inversion F; subst. rewrite IH by eauto. rewrite Nat2Z.inj_succ. unfold Z.succ. rewrite inject_Z_plus. change (inject_Z 1) with 1%Q.
    rewrite H1. ring.
Qed.
Lemma mean_const : forall l st, l <> [] -> Forall (fun d => d == st)%Q l -> exists m, np_mean l = Some m /\ (m == st)%Q.
Proof.
  intros l st N F. unfold np_mean. destruct l as [|x l]; [congruence|]. eexists; split; [reflexivity|].
  rewrite (sum_const _ st) by auto. field.
  intro K. change 0%Q with (inject_Z 0) in K. apply (proj1 (inject_Z_injective _ _)) in K. cbn [List.length] in K. lia.
Qed.
Lemma bpm_spec : forall n, has_meter n ->
  ((n_end n - n_start n) * 2 * inject_Z (n_den n) <= inject_Z (n_num n) -> n_bpm n = Ok None)%Q /\
  (inject_Z (n_num n) < (n_end n - n_start n) * 2 * inject_Z (n_den n) ->
     exists b, n_bpm n = Ok (Some b) /\ b * inject_Z (n_num n) == 120 * inject_Z (n_den n))%Q.
Proof.
  intros n [M1 M2]. unfold n_bpm, n_beat_duration. change (Qeq_bool 120 0) with false. cbv iota.
  assert (P1 : (0 < inject_Z (n_num n))%Q) by (change 0%Q with (inject_Z 0); rewrite <- Zlt_Qlt; auto).
  assert (P2 : (0 < inject_Z (n_den n))%Q) by (change 0%Q with (inject_Z 0); rewrite <- Zlt_Qlt; auto).
  remember (60 / 120 * (inject_Z (n_num n) / inject_Z (n_den n)))%Q as bd eqn:EB.
  assert (B : (bd * 2 * inject_Z (n_den n) == inject_Z (n_num n))%Q) by (subst bd; field; lra).
  assert (BP : (0 < bd)%Q).
  { subst bd. setoid_replace 0%Q with (60 / 120 * 0)%Q by reflexivity. apply Qmult_lt_l; [reflexivity|].
    apply Qlt_shift_div_l; lra. }
  clear EB. unfold np_arange. remember ((n_end n - n_start n) / bd)%Q as q eqn:EQ.
  assert (Q1 : (q * bd == n_end n - n_start n)%Q) by (subst q; field; lra). clear EQ.
  destruct (Qceiling_bounds q) as [C1 C2].
  set (len := Z.to_nat (Qceiling q)).
  split; intro H.
  - assert (q <= 1)%Q by nra.
    assert (L : (len <= 1)%nat).
    { subst len. assert (K : (inject_Z (Qceiling q) < inject_Z 2)%Q) by (change (inject_Z 2) with 2%Q; lra).
      rewrite <- Zlt_Qlt in K. lia. }
    destruct len as [|[|len]]; [reflexivity|reflexivity|lia].
  - assert (1 < q)%Q by nra.
    assert (L : (2 <= len)%nat).
    { subst len. assert (K : (inject_Z 1 < inject_Z (Qceiling q))%Q) by (change (inject_Z 1) with 1%Q; lra).
      rewrite <- Zlt_Qlt in K. lia. }
    destruct (mean_const (np_diff (map (fun i => (n_start n + inject_Z (Z.of_nat i) * bd)%Q) (seq 0 len))) bd) as [m [E1 E2]].
    { intro K. apply (f_equal (@List.length Q)) in K. rewrite diff_len, map_length, seq_length in K. cbn [List.length] in K. lia. }
    { apply diff_arith. }
    rewrite E1. eexists; split; [reflexivity|]. rewrite E2. rewrite <- B. field. lra.
Qed.

Lemma four_quarter : forall n,
  n_is_four_quarter n = true <->
  n_num n = 4 /\ n_den n = 4 /\ (Qabs (n_end n - n_start n - 60) <= (1 # 1000000000) * Qmaxb (Qabs (n_end n - n_start n)) 60)%Q.
Proof.
  intro n. unfold n_is_four_quarter.
  destruct (Z.eqb_spec (n_den n) 4) as [D|D]; [|cbn; split; [discriminate|intros [_ [K _]]; contradiction]].
  destruct (Z.eqb_spec (n_num n) 4) as [U|U]; [|cbn; split; [discriminate|intros [K _]; contradiction]].
  cbn [negb orb]. cbv zeta. rewrite D, U. unfold qclose. rewrite Qle_bool_iff. unfold n_duration.
  set (d := (n_end n - n_start n)%Q).
  assert (E1 : forall x, (Qabsb x == Qabs x)%Q).
  { intro x. destruct (Qabsb_spec x) as [[? ->]|[? ->]]; [rewrite Qabs_pos|rewrite Qabs_neg]; lra. }
  assert (E3 : (inject_Z 4 * (60 / inject_Z 4) == 60)%Q) by reflexivity.
  assert (E2 : forall x, (0 <= x)%Q -> (Qmaxb ((1 # 1000000000) * x) 0 == (1 # 1000000000) * x)%Q).
  { intros x Hx. destruct (Qmaxb_spec ((1 # 1000000000) * x) 0) as [[K ->]|[K ->]]; lra. }
  assert (E4 : (Qmaxb (Qabsb d) (Qabsb (inject_Z 4 * (60 / inject_Z 4))) == Qmaxb (Qabs d) 60)%Q).
  { assert (K : (Qabsb (inject_Z 4 * (60 / inject_Z 4)) == 60)%Q) by reflexivity.
    pose proof (E1 d) as K2.
    destruct (Qmaxb_spec (Qabsb d) (Qabsb (inject_Z 4 * (60 / inject_Z 4)))) as [[? ->]|[? ->]];
    destruct (Qmaxb_spec (Qabs d) 60) as [[? ->]|[? ->]]; lra. }
  assert (N : (0 <= Qmaxb (Qabs d) 60)%Q) by (destruct (Qmaxb_spec (Qabs d) 60) as [[? ->]|[? ->]]; lra).
  assert (N2 : (0 <= Qmaxb (Qabsb d) (Qabsb (inject_Z 4 * (60 / inject_Z 4))))%Q) by lra.
  pose proof (E2 _ N2) as E5. pose proof (E1 (d - inject_Z 4 * (60 / inject_Z 4)))%Q as E6.
  assert (E7 : (Qabs (d - inject_Z 4 * (60 / inject_Z 4)) == Qabs (d - 60))%Q) by (rewrite E3; reflexivity).
  split; [intro H; split; auto; split; auto|intros [_ [_ H]]]; lra.
Qed.

(** JSON. *)
Lemma json_full : forall a,
  n_from_json (json_of a) = match n_new a with Ok n => Ok (n, Some (n_voice a), Some (n_qe a)) | Err e => Err e end.
Proof.
  intros [a1 a2 a3 a4 a5 a6 a7 a8 a9 a10 a11 a12]. unfold n_from_json, json_of. cbn [n_pitch n_start n_end n_program n_instrument n_velocity n_qs n_qe n_voice n_num n_den n_drum j_pitch j_start j_end j_program j_instrument j_velocity j_qs j_qe j_voice j_num j_den j_drum].
  unfold n_new at 2. cbn [n_start n_end].
  destruct (Qle_bool _ _) eqn:E; [reflexivity|]. cbv zeta.
  unfold n_new at 1. cbn [n_start n_end]. rewrite E. reflexivity.
Qed.
Lemma json_missing : forall j, 
  (lacks_required j -> n_from_json j = Err KeyError) /\
  (~ lacks_required j -> j_num j = None \/ j_den j = None -> n_from_json j = Err AssertionError) /\
  (j_qs j = None -> exists e, n_from_json j = Err e) /\
  (forall n v q, n_from_json j = Ok (n, v, q) -> v = j_voice j /\ q = j_qe j /\
      (j_drum j = None -> n_drum n = false) /\ (q = None -> exists s, j_qs j = Some s /\ s < 0)%Q).
Proof.
  intro j. unfold lacks_required, n_from_json.
  destruct (j_pitch j) as [p|], (j_start j) as [s|], (j_end j) as [e|], (j_program j) as [pr|], (j_instrument j) as [i|], (j_velocity j) as [v|];
  try (split; [reflexivity|]; split; [intros H; exfalso; apply H; tauto|]; split; [intros; eexists; reflexivity|discriminate]).
  split; [intros H; exfalso; intuition discriminate|].
  destruct (Qle_bool e s).
  { split; [reflexivity|]. split; [eexists; reflexivity|discriminate]. }
  destruct (j_num j) as [nu|]; [|split; [reflexivity|]; split; [eexists; reflexivity|discriminate]].
  destruct (j_den j) as [de|]; [|split; [reflexivity|]; split; [eexists; reflexivity|discriminate]].
  split; [intros _ [H|H]; discriminate|]. cbv zeta.
  destruct (n_new _) as [n|x] eqn:E; [|split; [eexists; reflexivity|discriminate]].
  split.
  { intros ->. eexists; reflexivity. }
  intros n' v' q' H. 
  assert (D : n_drum n = match j_drum j with Some b => b | None => false end).
  { unfold n_new in E. destruct (Qle_bool _ _) in E; [discriminate|]. destruct (_ <=? 0) in E; [discriminate|].
    destruct (negb _) in E; [discriminate|]. apply Ok_inj in E. subst n. reflexivity. }
  destruct (j_qs j) as [a|]; [|discriminate]. destruct (j_qe j) as [b|].
  - apply Ok_inj in H. injection H as <- <- <-. split; auto. split; auto. split; [intros K; rewrite K in D; auto|discriminate].
  - destruct (Qle_bool 0 a) eqn:A; [discriminate|]. apply Ok_inj in H. injection H as <- <- <-.
    split; auto. split; auto. split; [intros K; rewrite K in D; auto|]. intros _. exists a. split; auto. apply Qle_bool_false in A. auto.
Qed.

(** An empty note at one step per second. *)
Lemma quantize_empty : forall n k, (n_start n == inject_Z k)%Q -> (n_end n == inject_Z k)%Q -> 0 <= k < 999998 ->
  (n_qs n < 0)%Q -> (n_qe n < 0)%Q ->
  (exists n', n_quantize_in_place n 1 1 None = (Ok tt, n') /\ (n_qs n' == inject_Z k)%Q /\ (n_qe n' == inject_Z (k + 1))%Q /\
     (n_start n' < n_end n')%Q /\ (n_end n' == inject_Z (k + 1))%Q) /\
  (forall sps, 1 < sps -> fst (n_quantize_in_place n sps 1 None) = Err ValueError).
Proof.
  intros n k Hs He [K0 K1] Q1 Q2.
  assert (NQ : n_is_quantized n = false) by (unfold n_is_quantized; rewrite (Qle_bool_ff 0 (n_qs n)) by lra; reflexivity).
  assert (P : (0 <= inject_Z k)%Q) by (change 0%Q with (inject_Z 0); rewrite <- Zle_Qle; auto).
  assert (M0 : forall t sps, (0 <= t)%Q -> (inject_Z (Qfloor (Qmaxb 0 (- t) * inject_Z sps)) == 0)%Q).
  { intros t sps Ht. assert (M : (Qmaxb 0 (- t) == 0)%Q) by (destruct (Qmaxb_max 0 (- t)) as [M1 [M2 [M3|M3]]]; lra).
    rewrite M. setoid_replace (0 * inject_Z sps)%Q with 0%Q by ring. reflexivity. }
  assert (FL : forall sps t, 0 < sps -> (t == inject_Z k)%Q -> (t * inject_Z sps + (1 - 1) == inject_Z (k * sps))%Q).
  { intros sps t Hsp Ht. rewrite Ht, inject_Z_mult. ring. }
  assert (QS : forall sps, 0 < sps -> quantize_step (n_start n) sps 1 true = Ok (k * sps)).
  { intros sps Hsp. unfold quantize_step. destruct (Z.leb_spec sps 0); [lia|]. change (Qle_bool 1 0) with false. cbv iota zeta.
    rewrite (FL sps _ Hsp Hs). rewrite Qfloor_Z. f_equal. lia. }
  assert (QE : forall sps, 0 < sps -> quantize_step (n_end n) sps 1 false = Ok (k * sps)).
  { intros sps Hsp. unfold quantize_step. destruct (Z.leb_spec sps 0); [lia|]. change (Qle_bool 1 0) with false. cbv iota zeta.
    rewrite (FL sps _ Hsp He). rewrite Qceiling_Z. f_equal. lia. }
  split.
  - unfold n_quantize_in_place. rewrite QS, QE by lia. rewrite Z.mul_1_r, Z.eqb_refl, Z.eqb_refl. cbn [andb]. cbv iota zeta.
    rewrite NQ. pose proof (M0 (n_start n) 1) as M1. pose proof (M0 (n_end n) 1) as M2.
    assert (U : (inject_Z (k + 1) == inject_Z k + 1)%Q) by (rewrite inject_Z_plus; reflexivity).
    rewrite set_qs_eq by lra. cbn [run]. rewrite set_qe_eq by lra. cbn [run].
    cbn [with_qs with_qe n_start n_end n_qs n_qe].
    rewrite !Qltb_false by lra. rewrite Qle_bool_ff by lra.
    assert (AR : forall j, (around2 (inject_Z j / inject_Z 1) == inject_Z j)%Q).
    { intro j. unfold around2, round_half_even. 
      assert (X : (inject_Z j / inject_Z 1 * 100 == inject_Z (j * 100))%Q) by (rewrite inject_Z_mult; change (inject_Z 1) with 1%Q; change (inject_Z 100) with 100%Q; field).
      assert (F : Qfloor (inject_Z j / inject_Z 1 * 100) = j * 100) by (rewrite X; apply Qfloor_Z).
      cbv zeta. rewrite F. rewrite (proj2 (Qltb_lt _ _)) by lra. rewrite inject_Z_mult. change (inject_Z 100) with 100%Q. field. }
    pose proof (AR k) as A1. pose proof (AR (k + 1)) as A2.
    assert (B : (inject_Z (k + 1) <= 999998)%Q) by (change 999998%Q with (inject_Z 999998); rewrite <- Zle_Qle; lia).
    set (ne := Qmaxb 0 (Qminb (around2 (inject_Z (k + 1) / inject_Z 1)) (999999 - (1 # 1000)))).
    assert (NE : (ne == inject_Z (k + 1))%Q).
    { subst ne. destruct (Qminb_spec (around2 (inject_Z (k + 1) / inject_Z 1)) (999999 - (1 # 1000))) as [[? ->]|[? ->]];
      match goal with |- context [Qmaxb 0 ?y] => destruct (Qmaxb_spec 0 y) as [[? ->]|[? ->]] end; lra. }
    clearbody ne.
    set (ns := Qmaxb 0 (Qminb (around2 (inject_Z k / inject_Z 1)) (n_end n - (1 # 1000)))).
    assert (NS : (0 <= ns /\ ns <= inject_Z k)%Q).
    { subst ns. destruct (Qminb_spec (around2 (inject_Z k / inject_Z 1)) (n_end n - (1 # 1000))) as [[? ->]|[? ->]];
      match goal with |- context [Qmaxb 0 ?y] => destruct (Qmaxb_spec 0 y) as [[? ->]|[? ->]] end; lra. }
    clearbody ns. destruct NS as [NS1 NS2].
    rewrite Qltb_false by lra. unfold n_set_end. cbn [with_qs with_qe n_start n_end]. rewrite Qltb_false by lra. rewrite Qle_bool_ff by lra.
    cbn [run with_qs with_qe with_end n_start n_end]. unfold n_set_start. cbn [with_qs with_qe with_end n_start n_end]. rewrite Qltb_false by lra. rewrite Qle_bool_ff by lra.
    eexists; split; [reflexivity|]. cbn [with_start with_qs with_qe with_end n_qs n_qe n_start n_end]. repeat split; lra.
  - intros sps Hsp. unfold n_quantize_in_place. rewrite QS, QE by lia.
    destruct (Z.eqb_spec sps 1); [lia|]. cbn [andb]. cbv iota zeta. rewrite NQ.
    assert (P2 : (0 <= inject_Z (k * sps))%Q) by (change 0%Q with (inject_Z 0); rewrite <- Zle_Qle; nia).
    pose proof (M0 (n_start n) sps) as M1. pose proof (M0 (n_end n) sps) as M2.
    rewrite set_qs_eq by lra. cbn [run]. rewrite set_qe_eq by lra. cbn [run].
    cbn [with_qs with_qe n_start n_end n_qs n_qe].
    rewrite !Qltb_false by lra. rewrite (proj2 (Qle_bool_iff _ _)) by lra. reflexivity.
Qed.
Lemma json_steps : forall a voice drum qs qe, accepts a ->
  n_from_json (mkJ (Some (n_pitch a)) (Some (n_start a)) (Some (n_end a)) (Some (n_program a)) (Some (n_instrument a))
    (Some (n_velocity a)) qs qe voice (Some (n_num a)) (Some (n_den a)) drum) = Err TypeError <->
  qs = None \/ (qe = None /\ exists s, qs = Some s /\ (0 <= s)%Q).
Proof.
  intros a voice drum qs qe [A1 [A2 A3]]. unfold n_from_json.
  cbn [j_pitch j_start j_end j_program j_instrument j_velocity j_qs j_qe j_voice j_num j_den j_drum].
  rewrite Qle_bool_ff by auto. cbv zeta.
  match goal with |- context [n_new ?x] => pose proof (proj1 (n_new_ok x)) as E end.
  destruct E as [n E]. { split; [exact A1|]. split; [exact A2|exact A3]. }
  rewrite E. destruct qs as [s|]; [|split; auto].
  destruct qe as [e|].
  - split; [discriminate|]. intros [K|[K _]]; discriminate.
  - qcase (Qle_bool 0 s).
    + split; auto. intros _. right. split; auto. exists s. auto.
    + split; [discriminate|]. intros [K|[_ [s' [K K2]]]]; [discriminate|]. injection K as <-. lra.
Qed.
