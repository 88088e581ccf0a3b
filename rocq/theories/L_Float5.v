(** Ticks and seconds in double precision: there and back. *)
From Coq Require Import QArith Qabs Qround Qpower Qfield Lia Lqa Sorted.
From Verif Require Import PyBase L_Base M_Note L_Note L_Note2 M_Ticks S_Ticks L_Ticks M_Float L_Float L_Float2 L_Float3 L_Float4.
Open Scope Z_scope.

Lemma ft_strict : forall r L s sc j, isf L -> msorted ((s, sc) :: r) -> (forall x, In x ((s, sc) :: r) -> (0 < snd x)%Q) -> s <= j ->
  (12 * u * ft L ((s, sc) :: r) (j + 1) < at_tick ((s, sc) :: r) j 0%Q)%Q -> (ft L ((s, sc) :: r) j < ft L ((s, sc) :: r) (j + 1))%Q.
Proof.
  induction r as [|[e sc2] r IH]; intros L s sc j F MS P K H; pose proof (P _ (or_introl eq_refl)) as SC; cbn in SC.
  - cbn [ft] in *. unfold at_tick in H. cbn [fold_left fst snd] in H. destruct (Z.leb_spec s j); [|lia].
    replace (j + 1 - s) with (j - s + 1) in * by lia. pose proof (sg_gap L sc (j - s) (proj1 F) SC ltac:(lia)). lra.
  - apply StronglySorted_inv in MS as [MS MF]. rewrite Forall_forall in MF. pose proof (MF _ (or_introl eq_refl)) as SE. cbn in SE.
    pose proof (isf_sg L sc (e - s) (proj1 F) ltac:(lra) ltac:(lia)) as F1.
    assert (FR : forall x, In x r -> e <= fst x) by (apply StronglySorted_inv in MS as [_ MF']; rewrite Forall_forall in MF'; intros x Hx; apply (MF' x Hx)).
    assert (FE : forall k, e <= k -> ft L ((s, sc) :: (e, sc2) :: r) k = ft (sg L sc (e - s)) ((e, sc2) :: r) k).
    { intros k Hk. change (ft L ((s, sc) :: (e, sc2) :: r) k) with (if k <=? e then sg L sc (k - s) else ft (sg L sc (e - s)) ((e, sc2) :: r) k).
      destruct (Z.leb_spec k e); auto. replace k with e by lia. symmetry. apply ft_start; auto. }
    destruct (Z_lt_le_dec j e) as [J|J].
    + assert (AT : at_tick ((s, sc) :: (e, sc2) :: r) j 0%Q = sc).
      { change ((s, sc) :: (e, sc2) :: r) with ([] ++ (s, sc) :: (e, sc2) :: r). apply at_tick_seg; auto. intros x [<-|Hx]; cbn; [lia|]. specialize (FR x Hx). lia. }
      rewrite AT in H.
      change (ft L ((s, sc) :: (e, sc2) :: r) (j + 1)) with (if j + 1 <=? e then sg L sc (j + 1 - s) else ft (sg L sc (e - s)) ((e, sc2) :: r) (j + 1)) in *.
      change (ft L ((s, sc) :: (e, sc2) :: r) j) with (if j <=? e then sg L sc (j - s) else ft (sg L sc (e - s)) ((e, sc2) :: r) j).
      destruct (Z.leb_spec (j + 1) e); [|lia]. destruct (Z.leb_spec j e); [|lia].
      replace (j + 1 - s) with (j - s + 1) in * by lia. pose proof (sg_gap L sc (j - s) (proj1 F) SC ltac:(lia)). lra.
    + rewrite !FE in * by lia. apply IH; auto; [intros; apply P; right; auto|].
      assert (AT : at_tick ((s, sc) :: (e, sc2) :: r) j 0%Q = at_tick ((e, sc2) :: r) j 0%Q).
      { unfold at_tick. cbn [fold_left fst snd]. destruct (Z.leb_spec s j); [|lia]. destruct (Z.leb_spec e j); [reflexivity|lia]. }
      rewrite AT in H. auto.
Qed.
Lemma sum_to_le : forall f c k, 0 <= k -> (forall i, 0 <= i -> (f i <= c)%Q) -> (sum_to f k <= inject_Z k * c)%Q.
Proof.
  intros f c k K H. revert k K. apply natlike_ind; [rewrite sum_to_0; change (inject_Z 0) with 0%Q; lra|].
  intros x Hx IH. unfold Z.succ. rewrite sum_to_succ by auto. rewrite inject_Z_succ. specialize (H x Hx). lra.
Qed.
(** Tempi of MIDI files: three bytes, and at most 234375 beats a minute. *)
Definition midi_tempi (evs : list (Z * Z)) : Prop := forall e, In e evs -> 256 <= snd e < 2 ^ 24.
Lemma midi_at : forall evs j, midi_tempi evs -> 256 <= at_tick evs j 500000 < 2 ^ 24.
Proof. intros evs j H. destruct (at_tick_In _ evs j 500000) as [->|[e [E1 ->]]]; [lia|apply H; auto]. Qed.
Lemma time_strict : forall r evs m b j, 0 < r -> tempo_events evs -> midi_tempi evs -> Z.of_nat (List.length evs) <= 2 ^ 40 ->
  load_tempo_f r evs = Ok m -> linv r evs m b -> 0 <= j < 2 ^ 30 -> (ft 0 m j < ft 0 m (j + 1))%Q.
Proof.
  intros r evs m b j R TE MT LE E I J. pose proof (linv_vmap _ _ _ _ R TE I) as V.
  pose proof (time_near r evs m b (j + 1) R TE E I ltac:(lia)) as N.
  pose proof (tf_near r evs m b j R TE I ltac:(lia)) as NS.
  assert (RQ : (0 < 1000000 * inject_Z r)%Q) by (pose proof (Zq r R); lra).
  set (w := (/ (1000000 * inject_Z r))%Q). assert (W : (0 < w)%Q) by (apply Qinv_lt_0_compat; auto).
  assert (TL : forall i, (256 * w <= tick_length r evs i <= 16777216 * w)%Q).
  { intros i. destruct (midi_at evs i MT) as [M1 M2]. unfold tick_length, Qdiv. fold w.
    assert (X1 : (256 <= inject_Z (at_tick evs i 500000%Z))%Q) by (change 256%Q with (inject_Z 256); rewrite <- Zle_Qle; auto).
    assert (X2 : (inject_Z (at_tick evs i 500000%Z) <= 16777216)%Q) by (change 16777216%Q with (inject_Z 16777216); rewrite <- Zle_Qle; lia).
    split; apply Qmul_le; lra. }
  assert (ST : (sum_to (tick_length r evs) (j + 1) <= inject_Z (j + 1) * (16777216 * w))%Q) by (apply sum_to_le; [lia|intros; apply TL]).
  assert (ST2 : (sum_to (tick_length r evs) (j + 1) <= 18014398509481984 * w)%Q).
  { assert (X : (inject_Z (j + 1) <= 1073741824)%Q) by (change 1073741824%Q with (inject_Z 1073741824); rewrite <- Zle_Qle; lia).
    apply Qle_trans with (1073741824 * (16777216 * w))%Q; [|lra]. eapply Qle_trans; [exact ST|]. apply Qmul_le; lra. }
  assert (L2 : (lp (5 + List.length evs) <= 2)%Q).
  { eapply Qle_trans; [apply lp_bound; lia|].
    assert (X : (inject_Z (Z.of_nat (5 + List.length evs)) <= 1099511627781)%Q) by (change 1099511627781%Q with (inject_Z 1099511627781); rewrite <- Zle_Qle; lia).
    assert (U : (u == 1 # 9007199254740992)%Q) by reflexivity. rewrite U. lra. }
  assert (L3 : (lp 3 <= 2)%Q) by (unfold lp, lam; unfold Qle; simpl; lia).
  destruct N as [N0 [_ [_ N1]]]. destruct NS as [S0 [_ [S1 _]]].
  assert (FT : (ft 0 m (j + 1) <= 2 * (18014398509481984 * w))%Q).
  { eapply Qle_trans; [exact N1|]. apply Qle_trans with (2 * sum_to (tick_length r evs) (j + 1))%Q; [|lra].
    apply Qmul_le; auto.
    assert (0 <= sum_to (tick_length r evs) (j + 1))%Q; auto. rewrite <- (sum_to_0 (tick_length r evs)).
    apply Qlt_le_weak. apply sum_to_mono; [intros; apply tick_length_pos; auto|lia]. }
  assert (TF : (128 * w <= tf m j)%Q).
  { destruct (TL j) as [T1 _]. assert (lp 3 * tf m j <= 2 * tf m j)%Q by (apply Qmul_le; auto). lra. }
  assert (V' := V). destruct V' as [[s0 [r0 E0]] [MS P]]. 
  assert (G : (12 * u * ft 0 m (j + 1) < at_tick m j 0%Q)%Q).
  { fold (tf m j). assert (U : (u == 1 # 9007199254740992)%Q) by reflexivity. rewrite U. lra. }
  rewrite E0 in *. apply ft_strict; auto; [split; [lra|reflexivity]|lia].
Qed.
(** The way back from seconds *)
Definition increasing (m : list (Z * Q)) (n : Z) : Prop := forall j, 0 <= j -> j + 1 < n -> (ft 0 m j < ft 0 m (j + 1))%Q.
Lemma increasing_lt : forall m n i k, increasing m n -> 0 <= i < k -> k < n -> (ft 0 m i < ft 0 m k)%Q.
Proof.
  intros m n i k H I K. replace k with (i + 1 + Z.of_nat (Z.to_nat (k - i - 1))) in * by lia. remember (Z.to_nat (k - i - 1)) as d eqn:D. clear D.
  assert (I2 : 0 <= i) by lia. clear I. revert K. induction d as [|d IH]; intros K.
  - replace (i + 1 + Z.of_nat 0) with (i + 1) in * by lia. apply H; lia.
  - apply Qlt_trans with (ft 0 m (i + 1 + Z.of_nat d)); [apply IH; lia|].
    replace (i + 1 + Z.of_nat (S d)) with (i + 1 + Z.of_nat d + 1) by lia. apply H; lia.
Qed.
Lemma back_f : forall m p k, finv m p -> increasing m (Z.of_nat (List.length (p_times p))) -> 0 <= k < Z.of_nat (List.length (p_times p)) ->
  time_to_tick_f p (ft 0 m k) = Ok k.
Proof.
  intros m p k [E1 [E2 G]] IN K. unfold time_to_tick_f. cbv zeta.
  assert (NT : forall x y, nth_error (p_times p) x = Some y -> (x < List.length (p_times p))%nat /\ y = ft 0 m (Z.of_nat x)).
  { intros x y H. assert (x < List.length (p_times p))%nat by (apply nth_error_Some; congruence). split; auto.
    specialize (G (Z.of_nat x) ltac:(lia)). rewrite Nat2Z.id, H in G. congruence. }
  assert (B : bisect_left Qltb (p_times p) (ft 0 m k) = Z.to_nat k).
  { apply bisect_left_spec; try lia.
    - intros x y Hx Hy. apply NT in Hy as [Hy ->]. apply Qltb_lt. eapply increasing_lt; eauto; lia.
    - intros x y Hx Hy. apply NT in Hy as [Hy ->]. apply Qltb_ge. destruct (Z.eq_dec (Z.of_nat x) k) as [->|NE]; [lra|].
      apply Qlt_le_weak. eapply increasing_lt; eauto; lia. }
  rewrite B. replace (Nat.eqb (Z.to_nat k) (List.length (p_times p))) with false by (symmetry; apply Nat.eqb_neq; lia).
  destruct (Nat.eqb_spec (Z.to_nat k) 0) as [Z0|Z0]; [f_equal; lia|].
  rewrite (py_nth_ok _ _ (Z.of_nat (Z.to_nat k) - 1) (ft 0 m (k - 1))) by (try lia; rewrite Z2Nat.id by lia; apply G; lia).
  rewrite (py_nth_ok _ _ (Z.of_nat (Z.to_nat k)) (ft 0 m k)) by (try lia; rewrite Z2Nat.id by lia; apply G; lia). cbn [bind].
  replace (Qltb _ _) with false; [f_equal; lia|]. symmetry. apply Qltb_ge.
  rewrite (fl_0 (ft 0 m k - ft 0 m k)) by ring. change (Qabsb 0) with 0%Q. destruct (Qabsb_abs (fl (ft 0 m k - ft 0 m (k - 1)))) as [A1 [A2 _]]. lra.
Qed.
Lemma last_tick_le : forall m b, 0 <= b -> (forall e, In e m -> fst e <= b) -> last_tick m <= b.
Proof. induction m as [|x m IH]; intros b B H; unfold last_tick; cbn [map fold_right]; [auto|]. fold (last_tick m). specialize (IH b B ltac:(intros; apply H; right; auto)). pose proof (H x (or_introl eq_refl)). lia. Qed.
Lemma loop_ticks : forall r evs sc m, tempo_loop_f r evs sc = Ok m -> forall x, In x m -> In (fst x) (map fst sc) \/ fst x = 0 \/ In (fst x) (map fst evs).
Proof.
  intros r. induction evs as [|[k t] evs IH]; intros sc m E x Hx; [cbn in E; injection E as <-; left; apply in_map; auto|].
  cbn [tempo_loop_f] in E. destruct (scale_f t r) as [s|]; [|discriminate]. cbn [bind] in E. cbn [map In fst].
  destruct (k =? 0); [destruct (IH _ _ E x Hx) as [[H|[]]|H]; [right; left; auto|tauto]|].
  destruct (rev sc) as [|[? l]]; [discriminate|].
  destruct (Qeq_bool s l); [destruct (IH _ _ E x Hx) as [H|H]; tauto|].
  destruct (IH _ _ E x Hx) as [H|H]; [|tauto]. rewrite map_app, in_app_iff in H. cbn in H. destruct H as [H|[H|[]]]; auto.
Qed.
Lemma pm_load_f_ok : forall r evs last, 0 < r -> tempo_events evs -> 0 <= last < MAX_TICK -> (forall e, In e evs -> fst e <= last) ->
  exists p m b, pm_load_f r evs last = Ok p /\ load_tempo_f r evs = Ok m /\ linv r evs m b /\ finv m p /\ Z.of_nat (List.length (p_times p)) = last + 2.
Proof.
  intros r evs last R TE L B. destruct (load_tempo_f_ok r evs R TE) as [m [b [E I]]]. pose proof (linv_vmap _ _ _ _ R TE I) as V.
  unfold pm_load_f. rewrite E. cbn [bind]. destruct (Z.ltb_spec MAX_TICK (last + 1)); [lia|].
  destruct (update_table_f_ok m (last + 1) V ltac:(lia)) as [a [Ea [La Ga]]]. rewrite Ea. cbn [bind].
  assert (LT : last_tick m <= last).
  { apply last_tick_le; [lia|]. intros e He. unfold load_tempo_f in E. destruct (scale_bpm_f 120 r); [|discriminate]. cbn [bind] in E.
    destruct (loop_ticks _ _ _ _ E e He) as [[H1|[]]|[H1|H1]]; cbn in *; try lia.
    apply in_map_iff in H1 as [e' [<- H1]]. auto. }
  eexists; exists m, b. split; [reflexivity|]. split; [auto|]. split; auto. split; [|cbn [p_times]; lia]. split; [reflexivity|]. cbn [p_times]. split; [lia|auto].
Qed.

(** ** any time *)
Lemma fl_opp : forall x, (x <= 0)%Q -> (fl x == - fl (- x))%Q.
Proof.
  intros x X. destruct (Qlt_le_dec x 0) as [N|N].
  - unfold fl. replace (Qltb 0 x) with false by (symmetry; apply Qltb_ge; lra). replace (Qltb x 0) with true by (symmetry; apply Qltb_lt; auto).
    replace (Qltb 0 (- x)) with true by (symmetry; apply Qltb_lt; lra). rewrite Qred_correct. reflexivity.
  - rewrite (fl_0 x), (fl_0 (- x)) by lra. reflexivity.
Qed.
Lemma abs_fl : forall x y, (x - y <= 0)%Q -> (Qabsb (fl (x - y)) == fl (y - x))%Q.
Proof.
  intros x y H. pose proof (fl_opp _ H) as E. assert (X : fl (- (x - y)) = fl (y - x)) by (apply fl_m0; lra). rewrite X in E.
  pose proof (fl_nonneg (y - x) ltac:(lra)). destruct (Qabsb_spec (fl (x - y))) as [[? ->]|[? ->]]; lra.
Qed.
Lemma abs_fl0 : forall x, (0 <= x)%Q -> (Qabsb (fl x) == fl x)%Q.
Proof. intros x H. pose proof (fl_nonneg x H). destruct (Qabsb_spec (fl x)) as [[? ->]|[? ->]]; lra. Qed.
Lemma split_at : forall (g : nat -> Q) t n, (forall i j, (i <= j)%nat -> (g i <= g j)%Q) ->
  exists i, (i <= n)%nat /\ (forall j, (j < i)%nat -> (g j < t)%Q) /\ (forall j, (i <= j)%nat -> (t <= g j)%Q \/ (n <= j)%nat).
Proof.
  intros g t n M. induction n as [|n [i [H1 [H2 H3]]]].
  - exists 0%nat. split; auto. split; [intros; lia|]. intros; right; lia.
  - destruct (Qlt_le_dec (g n) t) as [L|L].
    + exists (S n). split; auto. split; [|intros; right; lia]. intros j Hj. pose proof (M j n ltac:(lia)). lra.
    + exists i. split; [lia|]. split; auto. intros j Hj. destruct (H3 j Hj) as [H|H]; auto. left. pose proof (M n j H). lra.
Qed.
Lemma vmap_ft_mono : forall m j k, vmap m -> 0 <= j <= k -> (ft 0 m j <= ft 0 m k)%Q.
Proof.
  intros m j k [[s [r ->]] [MS P]] H. apply ft_mono; auto; try lia; [split; [lra|reflexivity]|]. intros x Hx. specialize (P x Hx). lra.
Qed.
(** what time_to_tick computes *)
Lemma to_tick_cases : forall m p t, vmap m -> finv m p -> let n := List.length (p_times p) in
  exists i, (i <= n)%nat /\ (forall j, (j < i)%nat -> (ft 0 m (Z.of_nat j) < t)%Q) /\ (forall j, (i <= j)%nat -> (j < n)%nat -> (t <= ft 0 m (Z.of_nat j))%Q) /\
  exists sc, (0 < sc)%Q /\ (exists pre s, m = pre ++ [(s, sc)]) /\
  time_to_tick_f p t = Ok (if Nat.eqb i n then round_half_even (fl (inject_Z (Z.of_nat n - 1) + fl (fl (t - ft 0 m (Z.of_nat n - 1)) / sc)))
                           else if Nat.eqb i 0 then 0
                           else if Qltb (fl (t - ft 0 m (Z.of_nat i - 1))) (fl (ft 0 m (Z.of_nat i) - t)) then Z.of_nat i - 1 else Z.of_nat i).
Proof.
  intros m p t V [E1 [E2 G]] n.
  destruct (split_at (fun i => ft 0 m (Z.of_nat i)) t n) as [i [I1 [I2 I3]]]; [intros; apply vmap_ft_mono; auto; lia|].
  exists i. split; auto. split; auto. split; [intros j Hj Hn; destruct (I3 j Hj); auto; lia|].
  destruct (vmap_last m V) as [pre [s [sc [E [EL [Hs Hsc]]]]]]. exists sc. split; auto. split; [eauto|].
  unfold time_to_tick_f. cbv zeta. fold n.
  assert (NT : forall x y, nth_error (p_times p) x = Some y -> (x < n)%nat /\ y = ft 0 m (Z.of_nat x)).
  { intros x y H. assert (x < n)%nat by (apply nth_error_Some; congruence). split; auto.
    specialize (G (Z.of_nat x) ltac:(lia)). rewrite Nat2Z.id, H in G. congruence. }
  assert (B : bisect_left Qltb (p_times p) t = i).
  { apply bisect_left_spec; auto.
    - intros x y Hx Hy. apply NT in Hy as [Hy ->]. apply Qltb_lt. auto.
    - intros x y Hx Hy. apply NT in Hy as [Hy ->]. apply Qltb_ge. destruct (I3 x Hx); auto. lia. }
  rewrite B. assert (N1 : 0 < Z.of_nat n) by (pose proof (last_tick_ge m (s, sc) ltac:(rewrite E; apply in_or_app; right; left; auto)); cbn in *; lia).
  destruct (Nat.eqb_spec i n) as [->|NE].
  - rewrite (py_nth_ok _ _ _ (ft 0 m (Z.of_nat n - 1))) by (try lia; apply G; lia). cbn [bind]. rewrite E1, E, rev_app_distr. cbn [rev app].
    destruct (Qeq_bool sc 0) eqn:Q0; [apply Qeq_bool_iff in Q0; lra|]. reflexivity.
  - destruct (Nat.eqb_spec i 0) as [Z0|Z0]; [reflexivity|].
    rewrite (py_nth_ok _ _ (Z.of_nat i - 1) (ft 0 m (Z.of_nat i - 1))) by (try lia; apply G; lia).
    rewrite (py_nth_ok _ _ (Z.of_nat i) (ft 0 m (Z.of_nat i))) by (try lia; apply G; lia). cbn [bind].
    assert (A1 : (ft 0 m (Z.of_nat i - 1) < t)%Q) by (replace (Z.of_nat i - 1) with (Z.of_nat (i - 1)) by lia; apply I2; lia).
    assert (A2 : (t <= ft 0 m (Z.of_nat i))%Q) by (destruct (I3 i ltac:(lia)); auto; lia).
    assert (X : Qltb (Qabsb (fl (t - ft 0 m (Z.of_nat i - 1)))) (Qabsb (fl (t - ft 0 m (Z.of_nat i)))) = Qltb (fl (t - ft 0 m (Z.of_nat i - 1))) (fl (ft 0 m (Z.of_nat i) - t))).
    { pose proof (abs_fl0 (t - ft 0 m (Z.of_nat i - 1)) ltac:(lra)) as X1. pose proof (abs_fl t (ft 0 m (Z.of_nat i)) ltac:(lra)) as X2.
      destruct (Qltb (fl (t - ft 0 m (Z.of_nat i - 1))) (fl (ft 0 m (Z.of_nat i) - t))) eqn:Q0.
      - apply Qltb_lt in Q0. apply Qltb_lt. lra.
      - apply Qltb_ge in Q0. apply Qltb_ge. lra. }
    rewrite X. clear X. destruct (Qltb (fl (t - ft 0 m (Z.of_nat i - 1))) _); reflexivity.
Qed.
Lemma tick_choice_ge : forall m n i t sc, (0 < i)%nat -> (0 < sc)%Q -> Z.of_nat n <= 2 ^ 53 -> (i <= n)%nat -> (ft 0 m (Z.of_nat n - 1) <= t)%Q \/ i <> n ->
  Z.of_nat i - 1 <= (if Nat.eqb i n then round_half_even (fl (inject_Z (Z.of_nat n - 1) + fl (fl (t - ft 0 m (Z.of_nat n - 1)) / sc)))
                           else if Nat.eqb i 0 then 0
                           else if Qltb (fl (t - ft 0 m (Z.of_nat i - 1))) (fl (ft 0 m (Z.of_nat i) - t)) then Z.of_nat i - 1 else Z.of_nat i).
Proof.
  intros m n i t sc I SC N IN H. destruct (Nat.eqb_spec i n) as [->|NE].
  - destruct H as [H|H]; [|congruence]. apply rhe_ge_Z. rewrite <- (fl_Z (Z.of_nat n - 1)) at 1 by lia. pose proof (Zq0 (Z.of_nat n - 1) ltac:(lia)).
    assert (0 <= fl (fl (t - ft 0 m (Z.of_nat n - 1)) / sc))%Q.
    { apply fl_nonneg. apply Qle_shift_div_l; auto. rewrite Qmult_0_l. apply fl_nonneg. lra. }
    apply fl_mono0; lra.
  - destruct (Nat.eqb_spec i 0); [lia|]. destruct (Qltb _ _); lia.
Qed.
Lemma to_tick_total : forall m p t, vmap m -> finv m p -> Z.of_nat (List.length (p_times p)) <= 2 ^ 53 -> exists k, time_to_tick_f p t = Ok k /\ 0 <= k.
Proof.
  intros m p t V I N. destruct (to_tick_cases m p t V I) as [i [I1 [I2 [I3 [sc [SC [_ E]]]]]]]. eexists. split; [exact E|].
  destruct I as [_ [J1 _]]. assert (LT : 0 <= last_tick m) by (destruct (vmap_last m V) as [? [? [? [? [-> [? ?]]]]]]; auto).
  destruct (Nat.eq_dec i 0) as [->|NZ].
  - destruct (Nat.eqb_spec 0 (List.length (p_times p))); [lia|]. cbn [Nat.eqb]. lia.
  - pose proof (tick_choice_ge m (List.length (p_times p)) i t sc ltac:(lia) SC N I1) as H. cbv zeta in H.
    assert (0 <= Z.of_nat i - 1) by lia. eapply Z.le_trans; [eassumption|]. apply H.
    destruct (Nat.eq_dec i (List.length (p_times p))) as [->|]; auto. left. apply Qlt_le_weak.
    replace (Z.of_nat (List.length (p_times p)) - 1) with (Z.of_nat (List.length (p_times p) - 1)) by lia. apply I2. lia.
Qed.
Lemma to_tick_mono : forall m p t1 t2 k1 k2, vmap m -> finv m p -> Z.of_nat (List.length (p_times p)) <= 2 ^ 53 -> (t1 <= t2)%Q ->
  time_to_tick_f p t1 = Ok k1 -> time_to_tick_f p t2 = Ok k2 -> k1 <= k2.
Proof.
  intros m p t1 t2 k1 k2 V I N L E1 E2.
  destruct (to_tick_cases m p t1 V I) as [i [I1 [I2 [I3 [sc [SC [[pre [s M1]] F1]]]]]]].
  destruct (to_tick_cases m p t2 V I) as [j [J1 [J2 [J3 [sc' [SC' [[pre' [s' M2]] F2]]]]]]].
  rewrite M1 in M2. apply app_inj_tail in M2 as [_ M2]. injection M2 as _ <-.
  rewrite E1 in F1. rewrite E2 in F2. apply Ok_inj in F1. apply Ok_inj in F2. subst k1 k2.
  set (n := List.length (p_times p)) in *. destruct I as [_ [K1 _]]. fold n in K1.
  assert (LT : 0 <= last_tick m) by (destruct (vmap_last m V) as [? [? [? [? [-> [? ?]]]]]]; auto).
  assert (IJ : (i <= j)%nat).
  { destruct (le_lt_dec i j); auto. exfalso. specialize (I2 j ltac:(lia)). specialize (J3 j ltac:(lia) ltac:(lia)). lra. }
  destruct (Nat.eq_dec i j) as [EQ|NE]; [subst j|].
  - destruct (Nat.eqb_spec i n) as [IN|JN]; [subst i|].
    + assert (T1 : (ft 0 m (Z.of_nat n - 1) < t1)%Q) by (replace (Z.of_nat n - 1) with (Z.of_nat (n - 1)) by lia; apply I2; lia).
      apply rhe_mono. set (tl := ft 0 m (Z.of_nat n - 1)) in *. pose proof (Zq0 (Z.of_nat n - 1) ltac:(lia)).
      assert (A : (0 <= fl (t1 - tl))%Q) by (apply fl_nonneg; lra). assert (B : (fl (t1 - tl) <= fl (t2 - tl))%Q) by (apply fl_mono0; lra).
      assert (C : (0 <= fl (t1 - tl) / sc)%Q) by (apply Qle_shift_div_l; auto; lra).
      assert (D : (fl (t1 - tl) / sc <= fl (t2 - tl) / sc)%Q) by (apply Qmul_le; auto; apply Qlt_le_weak, Qinv_lt_0_compat; auto).
      pose proof (fl_nonneg _ C). pose proof (fl_mono0 _ _ C D). apply fl_mono0; lra.
    + destruct (Nat.eqb_spec i 0) as [IZ|JZ]; [lia|].
      assert (T1 : (ft 0 m (Z.of_nat i - 1) < t1)%Q) by (replace (Z.of_nat i - 1) with (Z.of_nat (i - 1)) by lia; apply I2; lia).
      assert (T2 : (t2 <= ft 0 m (Z.of_nat i))%Q) by (apply J3; lia).
      pose proof (fl_mono0 (t1 - ft 0 m (Z.of_nat i - 1)) (t2 - ft 0 m (Z.of_nat i - 1)) ltac:(lra) ltac:(lra)) as X1.
      pose proof (fl_mono0 (ft 0 m (Z.of_nat i) - t2) (ft 0 m (Z.of_nat i) - t1) ltac:(lra) ltac:(lra)) as X2.
      destruct (Qltb (fl (t1 - _)) _) eqn:Q1, (Qltb (fl (t2 - _)) _) eqn:Q2; try lia.
      apply Qltb_ge in Q1. apply Qltb_lt in Q2. lra.
  - eapply Z.le_trans with (Z.of_nat j - 1).
    + replace (Nat.eqb i n) with false by (symmetry; apply Nat.eqb_neq; lia). destruct (Nat.eqb_spec i 0); [lia|]. destruct (Qltb _ _); lia.
    + apply tick_choice_ge; auto; try lia.
      destruct (Nat.eq_dec j n) as [->|]; auto. left. apply Qlt_le_weak. replace (Z.of_nat n - 1) with (Z.of_nat (n - 1)) by lia. apply J2. lia.
Qed.
Lemma to_tick_nearest : forall m p t k last, vmap m -> finv m p -> 0 <= last < Z.of_nat (List.length (p_times p)) -> (t <= ft 0 m last)%Q ->
  time_to_tick_f p t = Ok k -> 0 <= k <= last /\ forall j, 0 <= j -> (Qabsb (t - ft 0 m k) <= (1 + (1 # 2251799813685248)) * Qabsb (t - ft 0 m j))%Q.
Proof.
  intros m p t k last V I L T0 E. destruct (to_tick_cases m p t V I) as [i [I1 [I2 [I3 [sc [SC [_ F]]]]]]].
  rewrite E in F. apply Ok_inj in F. subst k. set (n := List.length (p_times p)) in *.
  assert (IL : Z.of_nat i <= last).
  { destruct (Z_le_gt_dec (Z.of_nat i) last); auto. specialize (I2 (Z.to_nat last) ltac:(lia)). rewrite Z2Nat.id in I2 by lia. lra. }
  replace (Nat.eqb i n) with false by (symmetry; apply Nat.eqb_neq; lia).
  assert (AB : forall x, (0 <= Qabsb x)%Q /\ (x <= Qabsb x)%Q /\ (- x <= Qabsb x)%Q) by (intros x; destruct (Qabsb_abs x) as [? [? ?]]; repeat split; lra).
  assert (HI : forall j, Z.of_nat i <= j -> (ft 0 m (Z.of_nat i) <= ft 0 m j)%Q) by (intros; apply vmap_ft_mono; auto; lia).
  assert (TI : (t <= ft 0 m (Z.of_nat i))%Q) by (apply I3; lia).
  destruct (Nat.eqb_spec i 0) as [->|Z0].
  - split; [lia|]. intros j Hj. specialize (HI j ltac:(lia)). change (Z.of_nat 0) with 0 in *. destruct (AB (t - ft 0 m j)%Q) as [A1 [A2 A3]].
    destruct (Qabsb_spec (t - ft 0 m 0)) as [[? X]|[? X]]; rewrite X; lra.
  - assert (TI' : (ft 0 m (Z.of_nat i - 1) < t)%Q) by (replace (Z.of_nat i - 1) with (Z.of_nat (i - 1)) by lia; apply I2; lia).
    assert (LO : forall j, 0 <= j <= Z.of_nat i - 1 -> (ft 0 m j <= ft 0 m (Z.of_nat i - 1))%Q) by (intros; apply vmap_ft_mono; auto; lia).
    set (t0 := ft 0 m (Z.of_nat i - 1)) in *. set (t1 := ft 0 m (Z.of_nat i)) in *.
    destruct (Qltb (fl (t - t0)) (fl (t1 - t))) eqn:Q0.
    + apply Qltb_lt in Q0. split; [lia|]. intros j Hj. fold t0. destruct (AB (t - ft 0 m j)%Q) as [A1 [A2 A3]].
      assert (C : (t - t0 <= t1 - t)%Q). { destruct (Qlt_le_dec (t1 - t) (t - t0)); auto. pose proof (fl_mono0 (t1 - t) (t - t0) ltac:(lra) ltac:(lra)). lra. }
      assert (X : (Qabsb (t - t0) == t - t0)%Q) by (destruct (Qabsb_spec (t - t0)) as [[? X]|[? X]]; rewrite X; lra). rewrite X.
      destruct (Z_le_gt_dec (Z.of_nat i) j); [specialize (HI j l)|specialize (LO j ltac:(lia))]; lra.
    + apply Qltb_ge in Q0. split; [lia|]. intros j Hj. fold t1. destruct (AB (t - ft 0 m j)%Q) as [A1 [A2 A3]].
      destruct (fl_err (t1 - t) ltac:(lra)) as [B1 _]. destruct (fl_err (t - t0) ltac:(lra)) as [_ B2].
      assert (X : (Qabsb (t - t1) == t1 - t)%Q) by (destruct (Qabsb_spec (t - t1)) as [[? X]|[? X]]; rewrite X; lra). rewrite X.
      assert (U : (u == 1 # 9007199254740992)%Q) by reflexivity. rewrite U in *.
      destruct (Z_le_gt_dec (Z.of_nat i) j); [specialize (HI j l)|specialize (LO j ltac:(lia))]; lra.
Qed.
