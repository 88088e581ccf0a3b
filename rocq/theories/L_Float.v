(** Rounding to 53 bits. *)
From Coq Require Import QArith Qabs Qround Qpower Lia Lqa.
From Verif Require Import PyBase L_Base M_Note L_Note L_Note2 M_Ticks M_Float.
Open Scope Z_scope.

Definition u : Q := 1 # (2 ^ 53)%positive.
Definition P (z : Z) : Q := (2 ^ z)%Q.
Lemma P_pos : forall z, (0 < P z)%Q.
Proof. intros. apply Qpower_0_lt. reflexivity. Qed.
Lemma P_plus : forall a b, (P (a + b) == P a * P b)%Q.
Proof. intros. apply Qpower_plus. discriminate. Qed.
Lemma P_inv : forall a, (P a * P (- a) == 1)%Q.
Proof. intros. rewrite <- P_plus. rewrite Z.add_opp_diag_r. reflexivity. Qed.
Lemma P_le : forall a b, a <= b -> (P a <= P b)%Q.
Proof. intros. apply Qpower_le_compat_l; auto. discriminate. Qed.
Lemma P_lt_inv : forall a b, (P a < P b)%Q -> a < b.
Proof. intros a b H. destruct (Z_lt_le_dec a b); auto. pose proof (P_le _ _ l). lra. Qed.
Lemma P_Z : forall k, 0 <= k -> (inject_Z (2 ^ k) == P k)%Q.
Proof. intros. unfold P. rewrite (Zpower_Qpower 2 k) by auto. reflexivity. Qed.
Lemma P_1 : forall a, (P (a + 1) == 2 * P a)%Q.
Proof. intros. rewrite P_plus. change (P 1) with 2%Q. ring. Qed.
Lemma P_m1 : forall a, (2 * P (a - 1) == P a)%Q.
Proof. intros. rewrite <- P_1. replace (a - 1 + 1) with a by lia. reflexivity. Qed.

Lemma Qmul_lt : forall a b c, (0 < c -> a < b -> a * c < b * c)%Q.
Proof. intros. apply Qmult_lt_compat_r; auto. Qed.
Lemma Qmul_le : forall a b c, (0 <= c -> a <= b -> a * c <= b * c)%Q.
Proof. intros. apply Qmult_le_compat_r; auto. Qed.
Lemma Qmul_lt_inv : forall a b c, (0 < c -> a * c < b * c -> a < b)%Q.
Proof. intros. apply Qmult_lt_r in H0; auto. Qed.
Lemma Qmul_le_inv : forall a b c, (0 < c -> a * c <= b * c -> a <= b)%Q.
Proof. intros. apply Qmult_le_r in H0; auto. Qed.

Lemma last_place_spec : forall x, (0 < x)%Q -> let e := last_place x in (P (e + 52) <= x /\ x < P (e + 53))%Q.
Proof.
  intros x X e0. set (n := Qnum x). set (d := Zpos (Qden x)).
  assert (N : 0 < n) by (unfold n; destruct x as [a b]; unfold Qlt in X; simpl in *; lia).
  assert (D : 0 < d) by (unfold d; lia).
  assert (XE : (x * inject_Z d == inject_Z n)%Q).
  { unfold n, d. destruct x as [a b]. unfold Qeq, Qmult, inject_Z; simpl. lia. }
  destruct (Z.log2_spec n N) as [N1 N2]. destruct (Z.log2_spec d D) as [D1 D2].
  pose proof (Z.log2_nonneg n) as LN. pose proof (Z.log2_nonneg d) as LD.
  assert (N1' : (P (Z.log2 n) <= inject_Z n)%Q) by (rewrite <- P_Z by auto; rewrite <- Zle_Qle; auto).
  assert (N2' : (inject_Z n < P (Z.log2 n + 1))%Q) by (rewrite <- P_Z by lia; rewrite <- Zlt_Qlt; replace (Z.log2 n + 1) with (Z.succ (Z.log2 n)) by lia; auto).
  assert (D1' : (P (Z.log2 d) <= inject_Z d)%Q) by (rewrite <- P_Z by auto; rewrite <- Zle_Qle; auto).
  assert (D2' : (inject_Z d < P (Z.log2 d + 1))%Q) by (rewrite <- P_Z by lia; rewrite <- Zlt_Qlt; replace (Z.log2 d + 1) with (Z.succ (Z.log2 d)) by lia; auto).
  assert (UP : (x < P (Z.log2 n - Z.log2 d - 52 + 53))%Q).
  { apply (Qmul_lt_inv _ _ (inject_Z d)). { pose proof (P_pos (Z.log2 d)). lra. }
    rewrite XE. eapply Qlt_le_trans; [exact N2'|]. 
    assert (E : (P (Z.log2 n + 1) == P (Z.log2 n - Z.log2 d - 52 + 53) * P (Z.log2 d))%Q) by (rewrite <- P_plus; replace (Z.log2 n - Z.log2 d - 52 + 53 + Z.log2 d) with (Z.log2 n + 1) by lia; reflexivity).
    rewrite E. rewrite !(Qmult_comm (P (Z.log2 n - Z.log2 d - 52 + 53))). apply Qmul_le; auto. apply Qlt_le_weak, P_pos. }
  assert (LO : (P (Z.log2 n - Z.log2 d - 52 + 51) < x)%Q).
  { apply (Qmul_lt_inv _ _ (inject_Z d)). { pose proof (P_pos (Z.log2 d)). lra. }
    rewrite XE. eapply Qlt_le_trans; [|exact N1'].
    assert (E : (P (Z.log2 n) == P (Z.log2 n - Z.log2 d - 52 + 51) * P (Z.log2 d + 1))%Q) by (rewrite <- P_plus; replace (Z.log2 n - Z.log2 d - 52 + 51 + (Z.log2 d + 1)) with (Z.log2 n) by lia; reflexivity).
    rewrite E. rewrite !(Qmult_comm (P (Z.log2 n - Z.log2 d - 52 + 51))). apply Qmul_lt; auto. apply P_pos. }
  set (e := Z.log2 n - Z.log2 d - 52) in *.
  assert (E52 : (inject_Z (2 ^ 52) * P e == P (e + 52))%Q) by (rewrite P_Z by lia; rewrite <- P_plus; replace (52 + e) with (e + 52) by lia; reflexivity).
  assert (XX : (x * P (- e) * P e == x)%Q) by (rewrite <- Qmult_assoc, (Qmult_comm (P (- e))), P_inv; ring).
  unfold e0, last_place. fold n d e. change (2 ^ (- e))%Q with (P (- e)).
  destruct (Qltb (x * P (- e)) (inject_Z (2 ^ 52))) eqn:C; [apply Qltb_lt in C|apply Qltb_ge in C].
  - replace (e - 1 + 52) with (e + 51) by lia. replace (e - 1 + 53) with (e + 52) by lia. split; [lra|].
    rewrite <- E52, <- XX. apply Qmul_lt; auto. apply P_pos.
  - split; auto. rewrite <- E52, <- XX. apply Qmul_le; auto. apply Qlt_le_weak, P_pos.
Qed.
Lemma last_place_unique : forall x e, (0 < x)%Q -> (P (e + 52) <= x)%Q -> (x < P (e + 53))%Q -> last_place x = e.
Proof.
  intros x e X A B. destruct (last_place_spec x X) as [C D].
  assert (e + 52 < last_place x + 53) by (apply P_lt_inv; lra). assert (last_place x + 52 < e + 53) by (apply P_lt_inv; lra). lia.
Qed.
Lemma last_place_mono : forall x y, (0 < x)%Q -> (x <= y)%Q -> last_place x <= last_place y.
Proof.
  intros x y X L. destruct (last_place_spec x X) as [A B]. destruct (last_place_spec y ltac:(lra)) as [C D].
  assert (last_place x + 52 < last_place y + 53) by (apply P_lt_inv; lra). lia.
Qed.

(** ** round_half_even *)
Lemma rhe_bounds : forall x, (x - (1 # 2) <= inject_Z (round_half_even x) <= x + (1 # 2))%Q.
Proof. intros. pose proof (round_half_even_near x) as H. destruct (Qabsb_abs (inject_Z (round_half_even x) - x)) as [A [B _]]. lra. Qed.
Lemma Qfloor_unique : forall x z, (inject_Z z <= x)%Q -> (x < inject_Z z + 1)%Q -> Qfloor x = z.
Proof.
  intros x z A B. destruct (Qfloor_bounds x) as [C D].
  assert (inject_Z z < inject_Z (Qfloor x + 1))%Q by (rewrite inject_Z_plus; change (inject_Z 1) with 1%Q; lra).
  assert (inject_Z (Qfloor x) < inject_Z (z + 1))%Q by (rewrite inject_Z_plus; change (inject_Z 1) with 1%Q; lra).
  rewrite <- Zlt_Qlt in H, H0. lia.
Qed.
Lemma rhe_mono : forall x y, (x <= y)%Q -> round_half_even x <= round_half_even y.
Proof.
  intros x y L. pose proof (rhe_bounds x) as A. pose proof (rhe_bounds y) as B.
  destruct (Z_le_gt_dec (round_half_even x) (round_half_even y)) as [G|G]; auto. exfalso.
  assert (H : (inject_Z (round_half_even y) + 1 <= inject_Z (round_half_even x))%Q).
  { change 1%Q with (inject_Z 1). rewrite <- inject_Z_plus. rewrite <- Zle_Qle. lia. }
  assert (E : (x == y)%Q) by lra. 
  unfold round_half_even in G. pose proof (Qfloor_comp _ _ E) as F. rewrite F in G.
  assert (M : forall a b c d, (a == b)%Q -> (c == d)%Q -> Qltb a c = Qltb b d).
  { intros a b c d E1 E2. destruct (Qltb b d) eqn:K; [apply Qltb_lt in K; apply Qltb_lt; lra|apply Qltb_ge in K; apply Qltb_ge; lra]. }
  rewrite (M (x - inject_Z (Qfloor y))%Q (y - inject_Z (Qfloor y))%Q (1 # 2) (1 # 2)) in G by lra.
  rewrite (M (1 # 2) (1 # 2) (x - inject_Z (Qfloor y))%Q (y - inject_Z (Qfloor y))%Q) in G by lra. lia.
Qed.
Lemma rhe_m : forall x y, (x == y)%Q -> round_half_even x = round_half_even y.
Proof. intros x y E. assert (round_half_even x <= round_half_even y) by (apply rhe_mono; lra). assert (round_half_even y <= round_half_even x) by (apply rhe_mono; lra). lia. Qed.
Lemma rhe_Z : forall z, round_half_even (inject_Z z) = z.
Proof.
  intros. pose proof (rhe_bounds (inject_Z z)) as A. set (r := round_half_even (inject_Z z)) in *. clearbody r.
  assert (inject_Z r < inject_Z (z + 1))%Q by (rewrite inject_Z_plus; change (inject_Z 1) with 1%Q; lra).
  assert (inject_Z z < inject_Z (r + 1))%Q by (rewrite inject_Z_plus; change (inject_Z 1) with 1%Q; lra).
  rewrite <- Zlt_Qlt in H, H0. lia.
Qed.
Lemma rhe_le_Z : forall x z, (x <= inject_Z z)%Q -> round_half_even x <= z.
Proof. intros. rewrite <- (rhe_Z z). apply rhe_mono; auto. Qed.
Lemma rhe_ge_Z : forall x z, (inject_Z z <= x)%Q -> z <= round_half_even x.
Proof. intros. rewrite <- (rhe_Z z). apply rhe_mono; auto. Qed.

(** ** fl *)
Lemma scaled : forall x, (0 < x)%Q -> let e := last_place x in (inject_Z (2 ^ 52) <= x * P (- e) /\ x * P (- e) < inject_Z (2 ^ 53))%Q.
Proof.
  intros x X e. destruct (last_place_spec x X) as [A B]. fold e in A, B. pose proof (P_pos (- e)) as PE.
  assert (XX : forall k, 0 <= k -> (inject_Z (2 ^ k) == P (e + k) * P (- e))%Q).
  { intros k K. rewrite P_Z by auto. rewrite <- P_plus. replace (e + k + - e) with k by lia. reflexivity. }
  rewrite (XX 52), (XX 53) by lia. split; [apply Qmul_le; auto; lra|apply Qmul_lt; auto].
Qed.
Lemma fl_pos_val : forall x, (fl_pos x == inject_Z (round_half_even (x * P (- last_place x))) * P (last_place x))%Q.
Proof. intros. unfold fl_pos. rewrite Qred_correct. reflexivity. Qed.
Lemma fl_is_pos : forall x, (0 < x)%Q -> fl x = fl_pos x.
Proof. intros x X. unfold fl. replace (Qltb 0 x) with true by (symmetry; apply Qltb_lt; auto). reflexivity. Qed.
Lemma fl_0 : forall x, (x == 0)%Q -> fl x = 0%Q.
Proof. intros x X. unfold fl. replace (Qltb 0 x) with false by (symmetry; apply Qltb_ge; lra). replace (Qltb x 0) with false by (symmetry; apply Qltb_ge; lra). reflexivity. Qed.
Lemma fl_pos_range : forall x, (0 < x)%Q -> let e := last_place x in (P (e + 52) <= fl_pos x /\ fl_pos x <= P (e + 53))%Q.
Proof.
  intros x X e. destruct (scaled x X) as [A B]. fold e in A, B. rewrite fl_pos_val. fold e.
  assert (L : 2 ^ 52 <= round_half_even (x * P (- e)) <= 2 ^ 53) by (split; [apply rhe_ge_Z; auto|apply rhe_le_Z; lra]).
  set (r := round_half_even (x * P (- e))) in *. clearbody r.
  assert (E : forall k, 0 <= k -> (P (e + k) == inject_Z (2 ^ k) * P e)%Q).
  { intros k K. rewrite P_Z by auto. rewrite <- P_plus. replace (k + e) with (e + k) by lia. reflexivity. }
  rewrite (E 52), (E 53) by lia. pose proof (P_pos e). split; apply Qmul_le; try lra; rewrite <- Zle_Qle; lia.
Qed.
Lemma fl_pos_err : forall x, (0 < x)%Q -> (x * (1 - u) <= fl_pos x /\ fl_pos x <= x * (1 + u))%Q.
Proof.
  intros x X. destruct (last_place_spec x X) as [A B]. set (e := last_place x) in *. rewrite fl_pos_val. fold e.
  pose proof (rhe_bounds (x * P (- e))) as [C D]. set (r := inject_Z (round_half_even (x * P (- e)))) in *. clearbody r.
  assert (XX : (x * P (- e) * P e == x)%Q) by (rewrite <- Qmult_assoc, (Qmult_comm (P (- e))), P_inv; ring).
  pose proof (P_pos e) as PE.
  assert (HP : ((1 # 2) * P e <= x * u)%Q).
  { assert (E : (P (e + 52) == inject_Z (2 ^ 52) * P e)%Q) by (rewrite P_Z by lia; rewrite <- P_plus; replace (52 + e) with (e + 52) by lia; reflexivity).
    assert (EU : ((1 # 2) * P e == (inject_Z (2 ^ 52) * P e) * u)%Q).
    { assert (K : (1 # 2 == inject_Z (2 ^ 52) * u)%Q) by reflexivity. rewrite K. ring. }
    rewrite EU, <- E. apply Qmul_le; auto. discriminate. }
  assert (C' : ((x * P (- e) - (1 # 2)) * P e <= r * P e)%Q) by (apply Qmul_le; lra).
  assert (D' : (r * P e <= (x * P (- e) + (1 # 2)) * P e)%Q) by (apply Qmul_le; lra).
  assert (E1 : ((x * P (- e) - (1 # 2)) * P e == x - (1 # 2) * P e)%Q) by (rewrite <- XX at 2; ring).
  assert (E2 : ((x * P (- e) + (1 # 2)) * P e == x + (1 # 2) * P e)%Q) by (rewrite <- XX at 2; ring).
  rewrite E1 in C'. rewrite E2 in D'. split; lra.
Qed.
Lemma fl_pos_mono : forall x y, (0 < x)%Q -> (x <= y)%Q -> (fl_pos x <= fl_pos y)%Q.
Proof.
  intros x y X L. pose proof (last_place_mono x y X L) as M. assert (Y : (0 < y)%Q) by lra.
  destruct (Z.eq_dec (last_place x) (last_place y)) as [E|E].
  - rewrite !fl_pos_val, E. apply Qmul_le; [apply Qlt_le_weak, P_pos|]. rewrite <- Zle_Qle. apply rhe_mono. apply Qmul_le; auto. apply Qlt_le_weak, P_pos.
  - destruct (fl_pos_range x X) as [_ A]. destruct (fl_pos_range y Y) as [B _].
    pose proof (P_le (last_place x + 53) (last_place y + 52) ltac:(lia)). lra.
Qed.
Lemma fl_mono0 : forall x y, (0 <= x)%Q -> (x <= y)%Q -> (fl x <= fl y)%Q.
Proof.
  intros x y X L. destruct (Qlt_le_dec 0 x) as [A|A].
  - rewrite !fl_is_pos by lra. apply fl_pos_mono; auto.
  - rewrite (fl_0 x) by lra. destruct (Qlt_le_dec 0 y) as [B|B]; [|rewrite (fl_0 y) by lra; lra].
    rewrite fl_is_pos by auto. destruct (fl_pos_range y B) as [C _]. pose proof (P_pos (last_place y + 52)). lra.
Qed.
Lemma fl_nonneg : forall x, (0 <= x)%Q -> (0 <= fl x)%Q.
Proof. intros x X. rewrite <- (fl_0 0) by reflexivity. apply fl_mono0; auto. lra. Qed.
Lemma fl_gt0 : forall x, (0 < x)%Q -> (0 < fl x)%Q.
Proof. intros x X. rewrite fl_is_pos by auto. destruct (fl_pos_range x X) as [C _]. pose proof (P_pos (last_place x + 52)). lra. Qed.
Lemma fl_err : forall x, (0 <= x)%Q -> (x * (1 - u) <= fl x /\ fl x <= x * (1 + u))%Q.
Proof.
  intros x X. destruct (Qlt_le_dec 0 x) as [A|A]; [rewrite fl_is_pos by auto; apply fl_pos_err; auto|].
  assert (E : (x == 0)%Q) by lra. rewrite (fl_0 x E). rewrite E. lra.
Qed.
Lemma fl_red : forall x, Qred (fl x) = fl x.
Proof.
  intros. unfold fl, fl_pos. destruct (Qltb 0 x); [apply Qred_complete, Qred_correct|]. destruct (Qltb x 0); [apply Qred_complete, Qred_correct|reflexivity].
Qed.
Lemma fl_m0 : forall x y, (0 <= x)%Q -> (x == y)%Q -> fl x = fl y.
Proof.
  intros x y X E. rewrite <- (fl_red x), <- (fl_red y). apply Qred_complete.
  pose proof (fl_mono0 x y X ltac:(lra)). pose proof (fl_mono0 y x ltac:(lra) ltac:(lra)). lra.
Qed.
(** The doubles among the rationals > 0: integers of at most 53 bits times a power of two. *)
Lemma fl_exact : forall n e x, 0 <= n -> n <= 2 ^ 53 -> (x == inject_Z n * P e)%Q -> (fl x == x)%Q.
Proof.
  intros n e x N0 N X. destruct (Z.eq_dec n 0) as [->|NZ].
  { assert (E : (x == 0)%Q) by (rewrite X; ring). rewrite (fl_0 x E). lra. }
  pose proof (P_pos e) as PE.
  assert (NP : (0 < inject_Z n)%Q) by (change 0%Q with (inject_Z 0); rewrite <- Zlt_Qlt; lia).
  assert (XP : (0 < x)%Q) by (rewrite X; apply Qmult_lt_0_compat; auto).
  rewrite fl_is_pos by auto. rewrite fl_pos_val. destruct (last_place_spec x XP) as [A B]. set (l := last_place x) in *.
  assert (XX : (x * P (- l) * P l == x)%Q) by (rewrite <- Qmult_assoc, (Qmult_comm (P (- l))), P_inv; ring).
  destruct (Z_le_gt_dec l e) as [G|G].
  - assert (E : (x * P (- l) == inject_Z (n * 2 ^ (e - l)))%Q).
    { rewrite X, inject_Z_mult, P_Z by lia. rewrite <- Qmult_assoc, <- P_plus. replace (e + - l) with (e - l) by lia. reflexivity. }
    rewrite (rhe_m _ _ E), rhe_Z, <- E. exact XX.
  - assert (n = 2 ^ 53).
    { assert (H : (P (l + 52) <= P (53 + e))%Q).
      { rewrite (P_plus 53 e). rewrite <- (P_Z 53) by lia. rewrite X in A. eapply Qle_trans; [exact A|]. apply Qmul_le; [lra|]. rewrite <- Zle_Qle. auto. }
      assert (l <= e + 1). { destruct (Z_le_gt_dec l (e + 1)); auto. exfalso. pose proof (P_le (53 + e + 1) (l + 52) ltac:(lia)) as H1. rewrite P_1 in H1. pose proof (P_pos (53 + e)). lra. }
      assert (l = e + 1) by lia. rewrite X, H1 in A.
      assert (H2 : (P (e + 1 + 52) == inject_Z (2 ^ 53) * P e)%Q) by (rewrite P_Z by lia; rewrite <- P_plus; replace (53 + e) with (e + 1 + 52) by lia; reflexivity).
      rewrite H2 in A. apply Qmul_le_inv in A; auto. rewrite <- Zle_Qle in A. lia. }
    assert (L1 : l = e + 1).
    { apply last_place_unique; auto.
      - rewrite X, H, P_Z, <- P_plus by lia. replace (53 + e) with (e + 1 + 52) by lia. lra.
      - rewrite X, H, P_Z, <- P_plus by lia. replace (e + 1 + 53) with (53 + e + 1) by lia. rewrite P_1. pose proof (P_pos (53 + e)). lra. }
    assert (E : (x * P (- l) == inject_Z (2 ^ 52))%Q).
    { rewrite X, H, L1, !P_Z by lia. rewrite <- Qmult_assoc, <- !P_plus. replace (53 + (e + - (e + 1))) with 52 by lia. reflexivity. }
    rewrite (rhe_m _ _ E), rhe_Z, <- E. exact XX.
Qed.
Lemma fl_Z : forall n, 0 <= n <= 2 ^ 53 -> (fl (inject_Z n) == inject_Z n)%Q.
Proof. intros n N. apply (fl_exact n 0); try lia. change (P 0) with 1%Q. ring. Qed.
Lemma fl_idem : forall x, (0 <= x)%Q -> fl (fl x) = fl x.
Proof.
  intros x X. destruct (Qlt_le_dec 0 x) as [A|A].
  - assert (K : (fl (fl x) == fl x)%Q); [|rewrite <- (fl_red (fl x)), (Qred_complete _ _ K); apply fl_red].
    rewrite (fl_is_pos x A). destruct (scaled x A) as [S1 S2]. set (r := round_half_even (x * P (- last_place x))) in *.
    assert (R : 2 ^ 52 <= r <= 2 ^ 53) by (unfold r; split; [apply rhe_ge_Z; auto|apply rhe_le_Z; lra]).
    apply (fl_exact r (last_place x)); try lia. apply fl_pos_val.
  - assert (E : (x == 0)%Q) by lra. rewrite (fl_0 x E). reflexivity.
Qed.
