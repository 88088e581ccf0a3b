From Coq Require Import Lia Lqa Qround QArith.
From Verif Require Import PyBase L_Base M_Note S_Note.
Open Scope Z_scope.

(** ** boolean comparisons on Q *)
Ltac qb :=
  repeat match goal with
  | H : Qle_bool _ _ = true |- _ => apply Qle_bool_iff in H
  | H : Qle_bool _ _ = false |- _ => apply Qle_bool_false in H
  | H : Qltb _ _ = true |- _ => apply Qltb_lt in H
  | H : Qltb _ _ = false |- _ => apply Qltb_ge in H
  end.
Ltac qcase a := let E := fresh "E" in destruct a eqn:E; qb.

Lemma Qmaxb_max : forall a b, (a <= Qmaxb a b)%Q /\ (b <= Qmaxb a b)%Q /\ (Qmaxb a b == a \/ Qmaxb a b == b)%Q.
Proof. intros a b. destruct (Qmaxb_spec a b) as [[H ->]|[H ->]]; (split; [lra|split; [lra|first [left; reflexivity|right; reflexivity]]]). Qed.
Lemma Qminb_min : forall a b, (Qminb a b <= a)%Q /\ (Qminb a b <= b)%Q /\ (Qminb a b == a \/ Qminb a b == b)%Q.
Proof. intros a b. destruct (Qminb_spec a b) as [[H ->]|[H ->]]; (split; [lra|split; [lra|first [left; reflexivity|right; reflexivity]]]). Qed.
Lemma Qabsb_abs : forall a, (a <= Qabsb a)%Q /\ (- a <= Qabsb a)%Q /\ (Qabsb a == a \/ Qabsb a == - a)%Q.
Proof. intros a. destruct (Qabsb_spec a) as [[H ->]|[H ->]]; (split; [lra|split; [lra|first [left; reflexivity|right; reflexivity]]]). Qed.

(** ** C14 *)
Lemma land_pow2 : forall d, 0 < d -> (Z.land d (d - 1) = 0 <-> power_of_two d).
Proof.
  intros d Hd. split.
  - intro H. exists (Z.log2 d). split; [apply Z.log2_nonneg|].
    destruct (Z.log2_spec d Hd) as [L1 L2].
    destruct (Z.eq_dec d (2 ^ Z.log2 d)) as [E|E]; auto. exfalso.
    assert (Hl : Z.log2 (d - 1) = Z.log2 d).
    { apply Z.log2_unique; [apply Z.log2_nonneg|lia]. }
    assert (B : Z.testbit (Z.land d (d - 1)) (Z.log2 d) = true).
    { rewrite Z.land_spec, Z.bit_log2 by auto. rewrite <- Hl at 1.
      assert (0 < 2 ^ Z.log2 d) by (apply Z.pow_pos_nonneg; [lia|apply Z.log2_nonneg]).
      rewrite Z.bit_log2 by lia. reflexivity. }
    rewrite H, Z.bits_0 in B. discriminate.
  - intros [k [Hk ->]]. replace (2 ^ k - 1) with (Z.ones k) by (rewrite Z.ones_equiv; lia).
    rewrite Z.land_ones by auto. apply Z.mod_same. apply Z.pow_nonzero; lia.
Qed.

Lemma clamp_warn_eq : forall hi v, 0 <= hi -> clamp_warn hi v = Z.max 0 (Z.min hi v).
Proof. intros; unfold clamp_warn. destruct (Z.leb_spec 0 v), (Z.leb_spec v hi); simpl; lia. Qed.
Lemma nearest_clamp : forall lo hi v, lo <= hi -> nearest_in lo hi v (Z.max lo (Z.min hi v)).
Proof. intros; unfold nearest_in; split; [lia|]. intros; lia. Qed.


Lemma n_new_ok : forall a, accepts a <-> exists n, n_new a = Ok n.
Proof.
  intros a. unfold accepts, n_new. qcase (Qle_bool (n_end a) (n_start a)).
  - split; [intros [H _]; lra|intros [n H]; discriminate].
  - destruct (Z.leb_spec (n_num a) 0).
    + split; [intros [_ [H0 _]]; lia|intros [n H0]; discriminate].
    + destruct (Z.ltb_spec 0 (n_den a)); simpl.
      * destruct (Z.eqb_spec (Z.land (n_den a) (n_den a - 1)) 0) as [L|L]; simpl.
        -- split; eauto. intros _. split; auto. split; auto. apply land_pow2; auto.
        -- split; [intros [_ [_ P]]; apply land_pow2 in P; auto; congruence|intros [n H1]; discriminate].
      * split; [intros [_ [_ [k [Hk P]]]]|intros [n H1]; discriminate].
        assert (0 < 2 ^ k) by (apply Z.pow_pos_nonneg; lia). lia.
Qed.

Lemma n_new_err : forall a, ~ accepts a -> n_new a = Err AssertionError.
Proof.
  intros a H. destruct (n_new a) as [n|e] eqn:E.
  - exfalso; apply H; apply n_new_ok; eauto.
  - unfold n_new in E. repeat match type of E with (if ?c then _ else _) = _ => destruct c end; congruence.
Qed.

Lemma n_new_fields : forall a n, n_new a = Ok n ->
  nearest_in 0 127 (n_pitch a) (n_pitch n) /\ nearest_in 0 127 (n_velocity a) (n_velocity n) /\
  nearest_in 0 255 (n_program a) (n_program n) /\ nearest_in 0 127 (n_instrument a) (n_instrument n) /\
  nearest_in 1 255 (n_num a) (n_num n) /\ nearest_in 1 255 (n_den a) (n_den n) /\
  n_voice n = n_voice a /\ n_drum n = n_drum a /\ n_start n = n_start a /\ n_end n = n_end a /\
  n_qs n = n_qs a /\ n_qe n = n_qe a /\ (n_start n < n_end n)%Q.
Proof.
  intros a n H. unfold n_new in H.
  qcase (Qle_bool (n_end a) (n_start a)); [discriminate|].
  destruct (Z.leb_spec (n_num a) 0); [discriminate|].
  destruct (negb ((0 <? n_den a) && (Z.land (n_den a) (n_den a - 1) =? 0))); [discriminate|].
  injection H as <-. cbn [n_pitch n_velocity n_program n_instrument n_num n_den n_voice n_drum n_start n_end n_qs n_qe].
  rewrite !clamp_warn_eq by lia.
  replace (Z.min (Z.max 0 (n_program a)) 255) with (Z.max 0 (Z.min 255 (n_program a))) by lia.
  replace (Z.min (Z.max (n_instrument a) 0) 127) with (Z.max 0 (Z.min 127 (n_instrument a))) by lia.
  replace (Z.max (Z.min (n_num a) 255) 1) with (Z.max 1 (Z.min 255 (n_num a))) by lia.
  replace (Z.max (Z.min (n_den a) 255) 1) with (Z.max 1 (Z.min 255 (n_den a))) by lia.
  repeat (split; [first [apply nearest_clamp; lia | reflexivity]|]). auto.
Qed.
Lemma n_new_lemma : forall a,
  (accepts a -> exists n, n_new a = Ok n /\ 
    nearest_in 0 127 (n_pitch a) (n_pitch n) /\ nearest_in 0 127 (n_velocity a) (n_velocity n) /\
    nearest_in 0 255 (n_program a) (n_program n) /\ nearest_in 0 127 (n_instrument a) (n_instrument n) /\
    nearest_in 1 255 (n_num a) (n_num n) /\ nearest_in 1 255 (n_den a) (n_den n) /\
    n_voice n = n_voice a /\ n_drum n = n_drum a /\ n_start n = n_start a /\ n_end n = n_end a /\
    n_qs n = n_qs a /\ n_qe n = n_qe a) /\
  (~ accepts a -> n_new a = Err AssertionError).
Proof.
  intro a. split; [|apply n_new_err]. intro H. apply n_new_ok in H as [n H].
  exists n. split; auto. apply n_new_fields in H. tauto.
Qed.
Lemma nearest_unique : forall lo hi v r, nearest_in lo hi v r -> lo <= v <= hi -> r = v.
Proof. intros lo hi v r [H1 H2] H. specialize (H2 v H). lia. Qed.
Lemma n_new_ranges : forall a n, n_new a = Ok n -> in_ranges n /\ (n_start n < n_end n)%Q.
Proof.
  intros a n H. apply n_new_fields in H. unfold nearest_in, in_ranges in *. intuition lia.
Qed.
Lemma n_new_id : forall n, in_ranges n -> (n_start n < n_end n)%Q -> power_of_two (n_den n) -> n_new n = Ok n.
Proof.
  intros n R S P. destruct (proj1 (n_new_ok n)) as [m E].
  { unfold accepts, in_ranges in *. intuition lia. }
  rewrite E. f_equal. apply n_new_fields in E. unfold in_ranges in R.
  destruct E as [E1 [E2 [E3 [E4 [E5 [E6 [E7 [E8 [E9 [E10 [E11 [E12 _]]]]]]]]]]]].
  apply nearest_unique in E1; [|tauto]. apply nearest_unique in E2; [|tauto].
  apply nearest_unique in E3; [|tauto]. apply nearest_unique in E4; [|tauto].
  apply nearest_unique in E5; [|tauto]. apply nearest_unique in E6; [|tauto].
  destruct m, n; simpl in *; congruence.
Qed.

(** ** C15 *)
Lemma n_set_start_spec : forall n v,
  ((0 <= v)%Q /\ (v < n_end n)%Q -> n_set_start n v = (Ok tt, with_start n v)) /\
  (~ ((0 <= v)%Q /\ (v < n_end n)%Q) -> n_set_start n v = (Err ValueError, n)).
Proof.
  intros n v; unfold n_set_start. qcase (Qltb v 0); [|qcase (Qle_bool (n_end n) v)]; split; intro H; auto; try lra.
  all: exfalso; apply H; split; lra.
Qed.
Lemma n_set_end_spec : forall n v,
  ((0 <= v)%Q /\ (n_start n < v)%Q -> n_set_end n v = (Ok tt, with_end n v)) /\
  (~ ((0 <= v)%Q /\ (n_start n < v)%Q) -> n_set_end n v = (Err ValueError, n)).
Proof.
  intros n v; unfold n_set_end. qcase (Qltb v 0); [|qcase (Qle_bool v (n_start n))]; split; intro H; auto; try lra.
  all: exfalso; apply H; split; lra.
Qed.
Lemma set_start_keeps : forall n v, (n_start n < n_end n)%Q ->
  (n_start (snd (n_set_start n v)) < n_end (snd (n_set_start n v)))%Q.
Proof.
  intros n v H; unfold n_set_start. qcase (Qltb v 0); auto. qcase (Qle_bool (n_end n) v); auto.
Qed.
Lemma set_end_keeps : forall n v, (n_start n < n_end n)%Q ->
  (n_start (snd (n_set_end n v)) < n_end (snd (n_set_end n v)))%Q.
Proof.
  intros n v H; unfold n_set_end. qcase (Qltb v 0); auto. qcase (Qle_bool v (n_start n)); auto.
Qed.
Lemma n_setters_run : forall a n ops, n_new a = Ok n -> Forall time_assignment ops ->
  (n_start (n_run n ops) < n_end (n_run n ops))%Q.
Proof.
  intros a n ops H. apply n_new_ranges in H as [_ H]. revert n H.
  induction ops as [|o ops IH]; intros n H F; simpl; auto. inversion F; subst.
  apply IH; auto. destruct o; simpl in *; try contradiction;
    [apply set_start_keeps|apply set_end_keeps]; auto.
Qed.

(** ** C16 *)
Lemma n_close_spec : forall a b, n_close a b = true <->
  (Qabsb (a - b) <= 1 # 1000000000)%Q \/ (Qabsb (a - b) <= (1 # 1000000000) * Qmaxb (Qabsb a) (Qabsb b))%Q.
Proof.
  intros a b; unfold n_close, qclose. rewrite Qle_bool_iff.
  destruct (Qmaxb_max ((1 # 1000000000) * Qmaxb (Qabsb a) (Qabsb b)) (1 # 1000000000)) as [M1 [M2 [M3|M3]]].
  - split; [intro; right; lra|intros [?|?]; lra].
  - split; [intro; left; lra|intros [?|?]; lra].
Qed.
Lemma n_close_refl : forall a, n_close a a = true.
Proof.
  intros; apply n_close_spec. left. destruct (Qabsb_abs (a - a)) as [_ [_ [H|H]]]; rewrite H; lra.
Qed.
Lemma n_close_sym : forall a b, n_close a b = n_close b a.
Proof.
  assert (G : forall a b, n_close a b = true -> n_close b a = true).
  { intros a b. rewrite !n_close_spec.
    assert (E : (Qabsb (a - b) == Qabsb (b - a))%Q).
    { destruct (Qabsb_spec (a - b)) as [[? ->]|[? ->]], (Qabsb_spec (b - a)) as [[? ->]|[? ->]]; lra. }
    assert (F : (Qmaxb (Qabsb a) (Qabsb b) == Qmaxb (Qabsb b) (Qabsb a))%Q).
    { destruct (Qmaxb_spec (Qabsb a) (Qabsb b)) as [[? ->]|[? ->]], (Qmaxb_spec (Qabsb b) (Qabsb a)) as [[? ->]|[? ->]]; lra. }
    rewrite E, F. auto. }
  intros a b. destruct (n_close a b) eqn:E, (n_close b a) eqn:F; auto;
    [apply G in E|apply G in F]; congruence.
Qed.
Lemma Qeq_bool_sym : forall a b, Qeq_bool a b = Qeq_bool b a.
Proof.
  intros. destruct (Qeq_bool a b) eqn:E, (Qeq_bool b a) eqn:F; auto.
  - apply Qeq_bool_iff in E. symmetry in E. apply Qeq_bool_iff in E. congruence.
  - apply Qeq_bool_iff in F. symmetry in F. apply Qeq_bool_iff in F. congruence.
Qed.
Lemma n_eqb_refl_sym : forall a b, n_eqb a a = true /\ n_eqb a b = n_eqb b a.
Proof.
  intros a b. split.
  - unfold n_eqb. rewrite !Z.eqb_refl, !n_close_refl, !Bool.eqb_reflx.
    assert (R : forall q, Qeq_bool q q = true) by (intro; apply Qeq_bool_iff; reflexivity).
    rewrite !R. reflexivity.
  - unfold n_eqb. rewrite (n_close_sym (n_start a)), (n_close_sym (n_end a)), (Qeq_bool_sym (n_qs a)), (Qeq_bool_sym (n_qe a)).
    rewrite (Z.eqb_sym (n_pitch a)), (Z.eqb_sym (n_velocity a)), (Z.eqb_sym (n_program a)), (Z.eqb_sym (n_instrument a)),
      (Z.eqb_sym (n_voice a)), (Z.eqb_sym (n_num a)), (Z.eqb_sym (n_den a)).
    destruct (n_drum a), (n_drum b); reflexivity.
Qed.

(** the order of __lt__, as inequalities *)
Lemma tol_cases : forall a b, (Qltb tol (Qabsb (a - b)) = true /\ (a + tol < b \/ b + tol < a)%Q) \/
   (Qltb tol (Qabsb (a - b)) = false /\ within_tol a b).
Proof.
  intros a b. unfold within_tol. qcase (Qltb tol (Qabsb (a - b))); [left|right]; split; auto;
    destruct (Qabsb_abs (a - b)) as [H1 [H2 [H3|H3]]]; unfold tol in *; lra.
Qed.
Lemma n_ltb_iff : forall a b, n_ltb a b = true <->
  before_tol (n_start a) (n_start b) \/
  (within_tol (n_start a) (n_start b) /\ before_tol (n_end a) (n_end b)) \/
  (within_tol (n_start a) (n_start b) /\ within_tol (n_end a) (n_end b) /\ n_pitch a < n_pitch b).
Proof.
  intros a b. unfold n_ltb, before_tol.
  destruct (tol_cases (n_start a) (n_start b)) as [[-> H]|[-> H]].
  - rewrite Qltb_lt. unfold within_tol, tol in *. split; [intro; left; lra|]. intros [?|[[? ?]|[? ?]]]; lra.
  - destruct (tol_cases (n_end a) (n_end b)) as [[-> H']|[-> H']].
    + rewrite Qltb_lt. unfold within_tol, tol in *. split; [intro; right; left; lra|].
      intros [?|[[? ?]|[? [? ?]]]]; lra.
    + rewrite Z.ltb_lt. split; [tauto|]. unfold within_tol, tol in *. intros [?|[[? ?]|[? [? ?]]]]; try lra; auto.
Qed.
Lemma n_ltb_irr_asym : forall a b, n_ltb a a = false /\ (n_ltb a b = true -> n_ltb b a = false).
Proof.
  assert (A : forall a b, n_ltb a b = true -> n_ltb b a = false).
  { intros a b H. destruct (n_ltb b a) eqn:E; auto. apply n_ltb_iff in H, E.
    unfold before_tol, within_tol, tol in *.
    destruct H as [H|[[[H H'] H0]|[[H H'] [[H0 H0'] H1]]]], E as [E|[[[E E'] E0]|[[E E'] [[E0 E0'] E1]]]];
      try lra; lia. }
  intros a b; split; auto. destruct (n_ltb a a) eqn:E; auto. rewrite (A a a E) in E; discriminate.
Qed.
Lemma n_ltb_trans_sep : forall a b c,
  separated (n_start a) (n_start b) -> separated (n_start b) (n_start c) -> separated (n_start a) (n_start c) ->
  separated (n_end a) (n_end b) -> separated (n_end b) (n_end c) -> separated (n_end a) (n_end c) ->
  n_ltb a b = true -> n_ltb b c = true -> n_ltb a c = true.
Proof.
  intros a b c S1 S2 S3 E1 E2 E3 H1 H2. apply n_ltb_iff in H1, H2; apply n_ltb_iff.
  unfold separated, before_tol, within_tol, tol in *.
  destruct H1 as [H|[[[H H'] H0]|[[H H'] [[H0 H0'] H1]]]], H2 as [E|[[[E E'] E0]|[[E E'] [[E0 E0'] E4]]]];
    destruct S1 as [S1|[S1|S1]]; try (exfalso; lra);
    destruct S2 as [S2|[S2|S2]]; try (exfalso; lra);
    destruct S3 as [S3|[S3|S3]]; try (exfalso; lra); try (left; lra);
    right;
    destruct E1 as [E1|[E1|E1]]; try (exfalso; lra);
    destruct E2 as [E2|[E2|E2]]; try (exfalso; lra);
    destruct E3 as [E3|[E3|E3]]; try (exfalso; lra); try (left; repeat split; lra);
    right; repeat split; try lra; lia.
Qed.
Lemma n_leb_iff : forall a b, n_leb a b = true <->
  (n_start a < n_start b)%Q \/ ((n_start a <= n_start b + tol)%Q /\ (n_end a <= n_end b + tol)%Q).
Proof.
  intros a b; unfold n_leb. qcase (Qltb (n_start a) (n_start b)); [tauto|].
  qcase (Qle_bool (Qabsb (n_start a - n_start b)) tol);
    destruct (Qabsb_abs (n_start a - n_start b)) as [H1 [H2 [H3|H3]]]; rewrite ?Qle_bool_iff; unfold tol in *;
    split; intros; try discriminate; try (right; lra); try lra.
Qed.

(** ** C17 *)
Lemma n_overlaps_iff : forall a b, (n_start a < n_end a)%Q -> (n_start b < n_end b)%Q ->
  (n_overlaps a b = true <-> exists t, sounds_at a t /\ sounds_at b t).
Proof.
  intros a b Ha Hb. unfold n_overlaps, sounds_at.
  rewrite !orb_true_iff, !andb_true_iff, !Qle_bool_iff, !Qltb_lt. split.
  - intro H.
    assert (X : (n_start b < n_end a)%Q /\ (n_start a < n_end b)%Q) by (destruct H as [[H|H]|H]; lra).
    set (lo := Qmaxb (n_start a) (n_start b)). set (hi := Qminb (n_end a) (n_end b)).
    exists ((lo + hi) * (1 # 2))%Q.
    destruct (Qmaxb_max (n_start a) (n_start b)) as [L1 [L2 L3]]; fold lo in L1, L2, L3.
    destruct (Qminb_min (n_end a) (n_end b)) as [M1 [M2 M3]]; fold hi in M1, M2, M3.
    assert (lo < hi)%Q by (destruct L3, M3; lra). lra.
  - intros [t [[H1 H2] [H3 H4]]].
    destruct (Qlt_le_dec (n_start b) (n_start a)).
    + destruct (Qlt_le_dec (n_end a) (n_end b)); [right; lra|left; right; lra].
    + left; left; lra.
Qed.
Lemma n_overlaps_sym : forall a b, (n_start a < n_end a)%Q -> (n_start b < n_end b)%Q ->
  n_overlaps a b = n_overlaps b a.
Proof.
  intros a b Ha Hb. assert (H1 := n_overlaps_iff a b Ha Hb). assert (H2 := n_overlaps_iff b a Hb Ha).
  destruct (n_overlaps a b), (n_overlaps b a); auto.
  - destruct (proj1 H1 eq_refl) as [t [? ?]]. symmetry; apply H2; eauto.
  - destruct (proj1 H2 eq_refl) as [t [? ?]]. apply H1; eauto.
Qed.

(** ** C18 *)
Lemma Qfloor_bounds : forall x, (inject_Z (Qfloor x) <= x)%Q /\ (x < inject_Z (Qfloor x) + 1)%Q.
Proof. intro x; split; [apply Qfloor_le|]. pose proof (Qlt_floor x) as H. rewrite inject_Z_plus in H. exact H. Qed.
Lemma Qceiling_bounds : forall x, (x <= inject_Z (Qceiling x))%Q /\ (inject_Z (Qceiling x) < x + 1)%Q.
Proof.
  intro x; split; [apply Qle_ceiling|]. pose proof (Qceiling_lt x) as H.
  unfold Z.sub in H. rewrite inject_Z_plus in H. change (inject_Z (- (1))) with (- (1))%Q in H.
  set (c := inject_Z (Qceiling x)) in *. clearbody c. lra.
Qed.
Lemma inject_Z_le : forall a b, (inject_Z a <= inject_Z b)%Q <-> a <= b.
Proof. intros. rewrite (Zle_Qle a b). reflexivity. Qed.
Lemma inject_Z_lt : forall a b, (inject_Z a < inject_Z b)%Q <-> a < b.
Proof. intros. rewrite (Zlt_Qlt a b). reflexivity. Qed.

Lemma quantize_step_err : forall t sps amount fl,
  (quantize_step t sps amount fl = Err ValueError <-> sps <= 0 \/ (amount <= 0)%Q) /\
  (0 < sps -> (0 < amount)%Q -> exists k, quantize_step t sps amount fl = Ok k /\ 0 <= k).
Proof.
  intros; unfold quantize_step. destruct (Z.leb_spec sps 0); [|qcase (Qle_bool amount 0)].
  - split; [split; auto|lia].
  - split; [split; auto|intros; lra].
  - split.
    + split; [discriminate|]. intros [?|?]; [lia|lra].
    + intros. eexists; split; [reflexivity|]. destruct fl; lia.
Qed.
Lemma Ok_inj : forall A (a b : A), Ok a = Ok b -> a = b.
Proof. intros A a b H; injection H; auto. Qed.
Lemma quantize_step_mono : forall t1 t2 sps amount fl k1 k2, (t1 <= t2)%Q ->
  quantize_step t1 sps amount fl = Ok k1 -> quantize_step t2 sps amount fl = Ok k2 -> k1 <= k2.
Proof.
  intros t1 t2 sps amount fl k1 k2 H. unfold quantize_step.
  destruct (Z.leb_spec sps 0); [discriminate|]. destruct (Qle_bool amount 0); [discriminate|].
  intros E1 E2; apply Ok_inj in E1; apply Ok_inj in E2; subst k1 k2.
  assert (X : (t1 * inject_Z sps + (1 - amount) <= t2 * inject_Z sps + (1 - amount))%Q).
  { assert (0 <= inject_Z sps)%Q by (change 0%Q with (inject_Z 0); apply inject_Z_le; lia). nra. }
  apply Z.max_le_compat_l. destruct fl; [apply Qfloor_resp_le|apply Qceiling_resp_le]; auto.
Qed.
Lemma quantize_step_near : forall t sps amount fl k, quantize_step t sps amount fl = Ok k ->
  let x := (t * inject_Z sps + (1 - amount))%Q in
  (0 <= x)%Q ->
  if fl then (inject_Z k <= x)%Q /\ (x < inject_Z k + 1)%Q
  else (x <= inject_Z k)%Q /\ (inject_Z k < x + 1)%Q.
Proof.
  intros t sps amount fl k H x Hx. unfold quantize_step in H.
  destruct (sps <=? 0); [discriminate|]. destruct (Qle_bool amount 0); [discriminate|].
  fold x in H. apply Ok_inj in H; subst k. destruct fl.
  - assert (0 <= Qfloor x) by (change 0 with (Qfloor 0); apply Qfloor_resp_le; auto).
    rewrite Z.max_r by lia. apply Qfloor_bounds.
  - assert (0 <= Qceiling x) by (change 0 with (Qceiling 0); apply Qceiling_resp_le; auto).
    rewrite Z.max_r by lia. apply Qceiling_bounds.
Qed.
