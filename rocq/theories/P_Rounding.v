(** The rounding of the models in double precision is that of IEEE 754 (round to nearest, ties to even), apart
    from the bounds on the exponent. *)
From Coq Require Import QArith Qabs Qpower Lia Lqa.
From Verif Require Import PyBase L_Base M_Note M_Ticks S_Graph M_Float L_Float S_Rounding L_Chord L_Snap.
Open Scope Z_scope.

Lemma inj_ge : forall a b, a <= b -> (inject_Z a <= inject_Z b)%Q.
Proof. intros. rewrite <- Zle_Qle. auto. Qed.
(** No integer is nearer than the nearest one; another one as near makes it even. *)
Lemma int_nearest : forall y k, let r := round_half_even y in
  (Qabs (inject_Z r - y) <= Qabs (inject_Z k - y))%Q /\ ((Qabs (inject_Z r - y) == Qabs (inject_Z k - y))%Q -> k <> r -> Z.Even r).
Proof.
  intros y k r. destruct (round_nearest y) as [H1 H2]. fold r in H1, H2. rewrite (Qabs_Qminus y) in H1, H2.
  destruct (Z.eq_dec k r) as [->|N]; [split; [apply Qle_refl|congruence]|].
  assert (K : (1 # 2 <= Qabs (inject_Z k - y))%Q).
  { apply Qabs_le_iff in H1. destruct (Z_lt_le_dec k r) as [L|L].
    - assert ((inject_Z (k + 1) <= inject_Z r)%Q) by (apply inj_ge; lia). rewrite inject_Z_plus in H. change (inject_Z 1) with 1%Q in H. rewrite Qabs_neg; lra.
    - assert ((inject_Z (r + 1) <= inject_Z k)%Q) by (apply inj_ge; lia). rewrite inject_Z_plus in H. change (inject_Z 1) with 1%Q in H. rewrite Qabs_pos; lra. }
  split; [lra|]. intros E _. apply H2. lra.
Qed.
Lemma pos_nearest : forall x, (0 < x)%Q -> bits53 (fl x) /\ forall d, bits53 d ->
  (Qabs (fl x - x) <= Qabs (d - x))%Q /\ ((Qabs (fl x - x) == Qabs (d - x))%Q -> ~ (d == fl x)%Q -> even53 (fl x)).
Proof.
  intros x X. rewrite fl_is_pos by exact X. pose proof (fl_pos_val x) as FV. pose proof (fl_pos_range x X) as FR. pose proof (last_place_spec x X) as LP. cbv zeta in FR, LP. pose proof (scaled x X) as SC. cbv zeta in SC.
  set (E := last_place x) in *. set (y := (x * P (- E))%Q) in *. set (r := round_half_even y) in *. pose proof (P_pos E) as PE. assert (XY : (x == y * P E)%Q) by (unfold y; rewrite <- Qmult_assoc, (Qmult_comm (P (- E))), P_inv; ring).
  assert (R : 2 ^ 52 <= r <= 2 ^ 53) by (split; [apply rhe_ge_Z|apply rhe_le_Z]; lra).
  assert (MUL : forall k d, (d == inject_Z k * P E)%Q -> (Qabs (fl_pos x - x) <= Qabs (d - x))%Q /\ ((Qabs (fl_pos x - x) == Qabs (d - x))%Q -> ~ (d == fl_pos x)%Q -> even53 (fl_pos x))).
  { intros k d D. assert (A1 : (Qabs (fl_pos x - x) == Qabs (inject_Z r - y) * P E)%Q).
    { rewrite FV, XY at 1. setoid_replace (inject_Z r * P E - y * P E)%Q with ((inject_Z r - y) * P E)%Q by ring. rewrite Qabs_Qmult, (Qabs_pos (P E)) by lra. reflexivity. }
    assert (A2 : (Qabs (d - x) == Qabs (inject_Z k - y) * P E)%Q).
    { rewrite D, XY at 1. setoid_replace (inject_Z k * P E - y * P E)%Q with ((inject_Z k - y) * P E)%Q by ring. rewrite Qabs_Qmult, (Qabs_pos (P E)) by lra. reflexivity. }
    destruct (int_nearest y k) as [N1 N2]. fold r in N1, N2. rewrite A1, A2. split; [apply Qmul_le; lra|]. intros T ND. exists r, E. split; [|split; [lia|exact FV]].
    apply N2.
    - apply (Qmult_inj_r _ _ (P E)); [lra|exact T].
    - intros ->. apply ND. rewrite D, FV. reflexivity. }
  split; [exists r, E; split; [lia|exact FV]|]. intros d [n [e' [NB D]]]. change (2 ^ e')%Q with (P e') in D.
  destruct (Z_le_gt_dec E e') as [L|G].
  - apply (MUL (n * 2 ^ (e' - E))). rewrite D, inject_Z_mult, P_Z by lia. rewrite <- Qmult_assoc, <- P_plus. replace (e' - E + E) with e' by lia. reflexivity.
  - assert (B : (d <= P (E + 52))%Q).
    { rewrite D. apply Qle_trans with (inject_Z (2 ^ 53) * P e')%Q; [apply Qmul_le; [pose proof (P_pos e'); lra|apply inj_ge; lia]|]. rewrite P_Z by lia. rewrite <- P_plus. apply P_le. lia. }
    assert (ME : (P (E + 52) == inject_Z (2 ^ 52) * P E)%Q) by (rewrite P_Z by lia; rewrite <- P_plus; replace (52 + E) with (E + 52) by lia; reflexivity).
    destruct (MUL (2 ^ 52) (P (E + 52)) ME) as [M1 M2].
    assert (Q1 : (Qabs (P (E + 52) - x) == x - P (E + 52))%Q) by (rewrite Qabs_neg by lra; ring). assert (Q2 : (Qabs (d - x) == x - d)%Q) by (rewrite Qabs_neg by lra; ring).
    split; [rewrite Q2; rewrite Q1 in M1; lra|]. intros T ND. apply M2.
    + rewrite Q1 in M1 |- *. rewrite Q2 in T. lra.
    + intros EQ. apply ND. rewrite Q1 in M1. rewrite Q2 in T. assert ((d == P (E + 52))%Q) by lra. rewrite H. exact EQ.
Qed.
Lemma bits_opp : forall d, bits53 d -> bits53 (- d).
Proof. intros d [n [e [N D]]]. exists (- n), e. split; [lia|]. rewrite D, inject_Z_opp. ring. Qed.
Lemma even_opp : forall d, even53 d -> even53 (- d).
Proof. intros d [n [e [[k K] [N D]]]]. exists (- n), e. split; [exists (- k); lia|]. split; [lia|]. rewrite D, inject_Z_opp. ring. Qed.
Lemma bits_m : forall a b, (a == b)%Q -> bits53 a -> bits53 b.
Proof. intros a b E [n [e [N D]]]. exists n, e. split; auto. rewrite <- E. exact D. Qed.
Lemma even_m : forall a b, (a == b)%Q -> even53 a -> even53 b.
Proof. intros a b E [n [e [N [M D]]]]. exists n, e. split; auto. split; auto. rewrite <- E. exact D. Qed.
Lemma fl_opp : forall x, (fl (- x) == - fl x)%Q.
Proof.
  intros x. unfold fl. destruct (Qlt_le_dec 0 x) as [A|A].
  - replace (Qltb 0 x) with true by (symmetry; apply Qltb_lt; exact A). replace (Qltb 0 (- x)) with false by (symmetry; apply Qltb_ge; lra). replace (Qltb (- x) 0) with true by (symmetry; apply Qltb_lt; lra).
    rewrite Qred_correct. rewrite <- !fl_is_pos by lra. rewrite (fl_m0 (- - x) x); [reflexivity|lra|ring].
  - replace (Qltb 0 x) with false by (symmetry; apply Qltb_ge; lra). destruct (Qlt_le_dec x 0) as [B|B].
    + replace (Qltb 0 (- x)) with true by (symmetry; apply Qltb_lt; lra). replace (Qltb x 0) with true by (symmetry; apply Qltb_lt; lra). rewrite Qred_correct. ring.
    + replace (Qltb 0 (- x)) with false by (symmetry; apply Qltb_ge; lra). replace (Qltb (- x) 0) with false by (symmetry; apply Qltb_ge; lra). replace (Qltb x 0) with false by (symmetry; apply Qltb_ge; lra). reflexivity.
Qed.
(** C200: the rounding used for every operation in double precision gives a number of 53 bits, no such number is nearer to the exact
    value, and if another one is as near, the one chosen is even in its last bit. *)
Theorem C200_rounding : forall x, bits53 (fl x) /\ forall d, bits53 d ->
  (Qabs (fl x - x) <= Qabs (d - x))%Q /\ ((Qabs (fl x - x) == Qabs (d - x))%Q -> ~ (d == fl x)%Q -> even53 (fl x)).
Proof.
  intros x. destruct (Qlt_le_dec 0 x) as [A|A]; [apply pos_nearest; exact A|]. destruct (Qlt_le_dec x 0) as [B|B].
  - destruct (pos_nearest (- x)) as [H1 H2]; [lra|]. split; [apply (bits_m (- fl (- x))); [rewrite fl_opp; ring|apply bits_opp; exact H1]|].
    intros d D. destruct (H2 (- d)%Q (bits_opp d D)) as [H3 H4].
    assert (E1 : (Qabs (fl (- x) - - x) == Qabs (fl x - x))%Q) by (rewrite fl_opp; rewrite <- (Qabs_opp (fl x - x)); apply Qabs_wd; ring).
    assert (E2 : (Qabs (- d - - x) == Qabs (d - x))%Q) by (rewrite <- (Qabs_opp (d - x)); apply Qabs_wd; ring).
    rewrite E1, E2 in H3. rewrite E1, E2 in H4. split; [exact H3|]. intros T N. apply (even_m (- fl (- x))); [rewrite fl_opp; ring|]. apply even_opp. apply H4; auto.
    intros Q. apply N. rewrite fl_opp in Q. lra.
  - assert (Z : fl x = 0%Q) by (apply fl_0; lra). rewrite Z. split; [exists 0, 0; split; [cbn; lia|reflexivity]|]. intros d D.
    assert (X0 : (x == 0)%Q) by lra. split.
    + setoid_replace (0 - x)%Q with 0%Q by lra. apply Qabs_nonneg.
    + intros T N. exfalso. apply N. setoid_replace (0 - x)%Q with 0%Q in T by lra. change (Qabs 0) with 0%Q in T. assert (X : (d - x == 0)%Q).
      { destruct (Qlt_le_dec (d - x) 0) as [L|L]; [rewrite Qabs_neg in T by lra; lra|rewrite Qabs_pos in T by lra; lra]. }
      lra.
Qed.
Print Assumptions C200_rounding.
(** 0.1 and a tie: 2^53 + 1 lies between two numbers of 53 bits. *)
Example C200_rounding_case : (fl (1 # 10) == (3602879701896397 # 36028797018963968))%Q /\ (fl (inject_Z (2 ^ 53 + 1)) == inject_Z (2 ^ 53))%Q /\ (fl (inject_Z (2 ^ 53 + 3)) == inject_Z (2 ^ 53 + 4))%Q.
Proof. vm_compute. auto. Qed.
