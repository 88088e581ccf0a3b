(** Property C204: the sizes of splits in double precision.  [ratio_f p q] is the ratio p/q as written in
    a program, a double; [count_f r n] is int(r * n); [split_masks_f t v n idx] are the masks of a graph
    with [n] nodes for the permutation [idx]; [split_ds_f r ds perm] is Experiments.split. *)
From Coq Require Import Qround Permutation Lia Lqa Psatz.
From Verif Require Import PyBase L_Base M_Note M_Events M_Float L_Float L_Float2 M_Dataset S_Dataset L_Dataset M_Transforms S_Transforms L_Transforms L_Transforms2 M_SplitF S_SplitF.
Open Scope Z_scope.

Lemma ZQ0 : forall n : nat, (0 <= inject_Z (Z.of_nat n))%Q.
Proof. intros n. change 0%Q with (inject_Z 0). rewrite <- Zle_Qle. lia. Qed.
Lemma trunc_flr : forall x, (0 <= x)%Q -> Qtrunc x = Qfloor x.
Proof. intros x H. unfold Qtrunc. rewrite (proj2 (Qle_bool_iff 0 x) H). reflexivity. Qed.
Lemma floor_in : forall x k, (inject_Z k <= x)%Q -> (x < inject_Z k + 1)%Q -> Qfloor x = k.
Proof. exact Qfloor_unique. Qed.
Lemma divq : forall a q, 0 < q -> (inject_Z a / inject_Z q == inject_Z (a / q) + inject_Z (a mod q) / inject_Z q)%Q.
Proof.
  intros a q Q. pose proof (Zq q Q) as Q0. rewrite (Z.div_mod a q) at 1 by lia. rewrite inject_Z_plus, inject_Z_mult. field. intro E; rewrite E in Q0; apply (Qlt_irrefl 0 Q0).
Qed.
(** The product within a factor of two roundings of the exact share. *)
Lemma count_near : forall p q n, 0 <= p -> 0 < q -> near 2 (fl (ratio_f p q * inject_Z (Z.of_nat n))) (inject_Z (p * Z.of_nat n) / inject_Z q).
Proof.
  intros p q n P Q. pose proof (Zq q Q) as Q0. assert (P0 : (0 <= inject_Z p)%Q) by (change 0%Q with (inject_Z 0); rewrite <- Zle_Qle; auto).
  assert (D : (0 <= inject_Z p / inject_Z q)%Q) by (apply Qle_shift_div_l; [auto|lra]).
  apply near_fl'. eapply near_m; [reflexivity| |exact (near_mul 1 _ _ (inject_Z (Z.of_nat n)) (ZQ0 n) (near_fl _ D))].
  rewrite inject_Z_mult. field. intro E; rewrite E in Q0; apply (Qlt_irrefl 0 Q0).
Qed.
Lemma div_step : forall a b q, 0 < q -> a < b -> (inject_Z a / inject_Z q + 1 / inject_Z q <= inject_Z b / inject_Z q)%Q.
Proof.
  intros a b q Q H. pose proof (Zq q Q) as Q0. assert (E : (inject_Z a / inject_Z q + 1 / inject_Z q == inject_Z (a + 1) / inject_Z q)%Q) by (rewrite inject_Z_plus; field; intro E; rewrite E in Q0; apply (Qlt_irrefl 0 Q0)).
  rewrite E. unfold Qdiv. apply Qmul_le; [apply Qlt_le_weak, Qinv_lt_0_compat; auto|rewrite <- Zle_Qle; lia].
Qed.

Lemma absb2 : forall a e, (Qabsb a <= e)%Q -> (a <= e /\ - e <= a)%Q.
Proof. intros a e H. destruct (Qabsb_spec a) as [[A E] | [A E]]; rewrite E in H; split; lra. Qed.

(** C204: the size is the exact share, rounded down, or one less where the exact share is a whole number. *)
Theorem C204_share : forall p q n, 0 <= p -> 0 < q -> p * Z.of_nat n < 2 ^ 50 -> share p q n (count_f (ratio_f p q) n).
Proof.
  intros p q n P Q B. pose proof (Zq q Q) as Q0. pose proof (count_near p q n P Q) as N. unfold count_f. set (x := fl (ratio_f p q * inject_Z (Z.of_nat n))) in *. clearbody x.
  pose proof (near_abs 2 _ _ ltac:(vm_compute; discriminate) N) as A. pose proof (proj1 N) as X0. rewrite trunc_flr by auto.
  unfold share. set (a := p * Z.of_nat n) in *. assert (A0 : 0 <= a) by (unfold a; apply Z.mul_nonneg_nonneg; lia).
  assert (E : (inject_Z a / inject_Z q * (inject_Z (Z.of_nat 2) / inject_Z (2 ^ 51)) < 1 / inject_Z q)%Q).
  { assert (X : (inject_Z a / inject_Z q * (inject_Z (Z.of_nat 2) / inject_Z (2 ^ 51)) == (inject_Z a / inject_Z (2 ^ 50)) * / inject_Z q)%Q) by (assert (Y : (inject_Z (Z.of_nat 2) / inject_Z (2 ^ 51) == / inject_Z (2 ^ 50))%Q) by reflexivity; rewrite Y; unfold Qdiv; ring).
    rewrite X. unfold Qdiv at 2. apply Qmul_lt; [apply Qinv_lt_0_compat; auto|]. apply Qlt_shift_div_r; [reflexivity|]. rewrite Qmult_1_l. rewrite <- Zlt_Qlt. auto. }
  destruct (absb2 _ _ A) as [U L]. set (d := (1 / inject_Z q)%Q) in *. set (e := (inject_Z a / inject_Z q * (inject_Z (Z.of_nat 2) / inject_Z (2 ^ 51)))%Q) in *.
  clearbody e. clear A. pose proof (divq a q Q) as D. pose proof (Z.mod_pos_bound a q Q) as M.
  assert (TOP : (inject_Z (a mod q) / inject_Z q + d <= 1)%Q).
  { assert (Y : (inject_Z q / inject_Z q == 1)%Q) by (field; intro Z0; rewrite Z0 in Q0; apply (Qlt_irrefl 0 Q0)). rewrite <- Y. apply div_step; lia. }
  destruct (Z.eq_dec (a mod q) 0) as [R | R].
  - rewrite R in *. assert (R0 : (inject_Z 0 / inject_Z q == 0)%Q) by (unfold Qdiv; ring). rewrite R0 in *.
    destruct (Qlt_le_dec x (inject_Z (a / q))) as [LT | GE].
    + right. split; [reflexivity|]. apply floor_in; rewrite ?inject_Z_plus; unfold Z.sub; rewrite ?inject_Z_plus; change (inject_Z (- (1))) with (-1)%Q; lra.
    + left. apply floor_in; lra.
  - left. assert (LOW : (d <= inject_Z (a mod q) / inject_Z q)%Q).
    { pose proof (div_step 0 (a mod q) q Q ltac:(lia)) as Y. assert (R0 : (inject_Z 0 / inject_Z q == 0)%Q) by (unfold Qdiv; ring). rewrite R0 in Y. unfold d. lra. }
    apply floor_in; lra.
Qed.
Print Assumptions C204_share.
(** C204: where the double is not below the ratio, the size is the exact share, rounded down. *)
Theorem C204_exact : forall p q n, 0 <= p -> 0 < q -> p * Z.of_nat n < 2 ^ 50 -> (inject_Z p / inject_Z q <= ratio_f p q)%Q ->
  count_f (ratio_f p q) n = p * Z.of_nat n / q.
Proof.
  intros p q n P Q B G. destruct (C204_share p q n P Q B) as [E | [M E]]; [auto|]. exfalso.
  pose proof (Zq q Q) as Q0. pose proof (ZQ0 n) as N0. set (k := p * Z.of_nat n / q) in *.
  assert (K0 : 0 <= k) by (apply Z.div_pos; [apply Z.mul_nonneg_nonneg; lia|lia]).
  assert (KB : k <= 2 ^ 53) by (assert (k <= p * Z.of_nat n) by (apply Z.div_le_upper_bound; [lia|]; assert (0 <= p * Z.of_nat n) by (apply Z.mul_nonneg_nonneg; lia); nia); assert (2 ^ 50 <= 2 ^ 53) by (vm_compute; discriminate); lia).
  assert (Y : (inject_Z k <= ratio_f p q * inject_Z (Z.of_nat n))%Q).
  { apply Qle_trans with (inject_Z p / inject_Z q * inject_Z (Z.of_nat n))%Q; [|apply Qmul_le; auto].
    assert (D : (inject_Z p / inject_Z q * inject_Z (Z.of_nat n) == inject_Z (p * Z.of_nat n) / inject_Z q)%Q) by (rewrite inject_Z_mult; unfold Qdiv; ring). rewrite D, (divq _ _ Q), M. fold k.
    unfold Qdiv. rewrite Qmult_0_l. lra. }
  assert (KQ : (0 <= inject_Z k)%Q) by (change 0%Q with (inject_Z 0); rewrite <- Zle_Qle; auto).
  pose proof (fl_mono0 _ _ KQ Y) as F. rewrite (fl_Z k) in F by lia.
  unfold count_f in E. rewrite trunc_flr in E by (apply Qle_trans with (inject_Z k); auto).
  pose proof (Qfloor_resp_le _ _ F) as W. rewrite Qfloor_Z in W. lia.
Qed.
Print Assumptions C204_exact.
(** C204: against the exact product of the double ratio and the number of nodes the size is never below
    the rounded-down product, and above it only where the product rounds to the next whole number. *)
Theorem C204_product : forall r n, (0 <= r)%Q -> (r <= 1)%Q -> Z.of_nat n <= 2 ^ 53 ->
  let y := (r * inject_Z (Z.of_nat n))%Q in
  0 <= count_f r n <= Z.of_nat n /\
  (count_f r n = Qfloor y \/ (count_f r n = Qfloor y + 1 /\ (fl y == inject_Z (Qfloor y + 1))%Q)).
Proof.
  intros r n R0 R1 B y. pose proof (ZQ0 n) as N0. assert (Y0 : (0 <= y)%Q) by (apply Qmult_le_0_compat; auto).
  assert (YN : (y <= inject_Z (Z.of_nat n))%Q) by (unfold y; rewrite <- (Qmult_1_l (inject_Z (Z.of_nat n))) at 2; apply Qmul_le; auto).
  pose proof (fl_nonneg _ Y0) as F0. unfold count_f. fold y. rewrite trunc_flr by auto.
  assert (FN : (fl y <= inject_Z (Z.of_nat n))%Q) by (rewrite <- (fl_Z (Z.of_nat n)) by lia; apply fl_mono0; auto).
  split; [split|].
  - change 0 with (Qfloor (inject_Z 0)). apply Qfloor_resp_le; auto.
  - pose proof (Qfloor_resp_le _ _ FN) as W. rewrite Qfloor_Z in W. exact W.
  - pose proof (Qfloor_le y) as L. pose proof (Qlt_floor y) as U. set (k := Qfloor y) in *.
    assert (K0 : 0 <= k) by (unfold k; change 0 with (Qfloor (inject_Z 0)); apply Qfloor_resp_le; auto).
    assert (KN : k <= Z.of_nat n) by (unfold k; rewrite <- (Qfloor_Z (Z.of_nat n)); apply Qfloor_resp_le; auto).
    assert (FL : (inject_Z k <= fl y)%Q) by (rewrite <- (fl_Z k) by lia; apply fl_mono0; [change 0%Q with (inject_Z 0); rewrite <- Zle_Qle|]; auto).
    assert (Y1 : (y <= inject_Z (k + 1))%Q) by (apply Qlt_le_weak; auto).
    destruct (Z.eq_dec k (Z.of_nat n)) as [E | E].
    + left. apply floor_in; auto. rewrite E. lra.
    + assert (FU : (fl y <= inject_Z (k + 1))%Q) by (rewrite <- (fl_Z (k + 1)) by lia; apply fl_mono0; auto).
      destruct (Qlt_le_dec (fl y) (inject_Z (k + 1))) as [LT | GE].
      * left. apply floor_in; auto. rewrite inject_Z_plus in LT. exact LT.
      * right. split; [|apply Qle_antisym; auto]. apply floor_in; auto. apply Qle_lt_trans with (inject_Z (k + 1)); auto. lra.
Qed.
Print Assumptions C204_product.
Lemma sizes_fit : forall t v n, (0 <= t)%Q -> (0 <= v)%Q -> (t + v <= 1)%Q -> Z.of_nat n < 2 ^ 53 -> count_f t n + count_f v n <= Z.of_nat n /\ 0 <= count_f t n /\ 0 <= count_f v n.
Proof.
  intros t v n T V TV B. pose proof (ZQ0 n) as N0. unfold count_f.
  assert (T0 : (0 <= t * inject_Z (Z.of_nat n))%Q) by (apply Qmult_le_0_compat; auto). assert (V0 : (0 <= v * inject_Z (Z.of_nat n))%Q) by (apply Qmult_le_0_compat; auto).
  pose proof (fl_nonneg _ T0) as FT. pose proof (fl_nonneg _ V0) as FV. destruct (fl_err _ T0) as [_ ET]. destruct (fl_err _ V0) as [_ EV].
  rewrite !trunc_flr by auto. pose proof (Qfloor_le (fl (t * inject_Z (Z.of_nat n)))) as LT. pose proof (Qfloor_le (fl (v * inject_Z (Z.of_nat n)))) as LV.
  set (a := Qfloor (fl (t * inject_Z (Z.of_nat n)))) in *. set (b := Qfloor (fl (v * inject_Z (Z.of_nat n)))) in *.
  assert (NB : (inject_Z (Z.of_nat n) * u < 1)%Q).
  { apply Qlt_le_trans with (inject_Z (2 ^ 53) * u)%Q; [|discriminate]. apply Qmul_lt; [reflexivity|]. rewrite <- Zlt_Qlt; auto. }
  assert (SUM : ((t + v) * inject_Z (Z.of_nat n) <= inject_Z (Z.of_nat n))%Q) by (rewrite <- (Qmult_1_l (inject_Z (Z.of_nat n))) at 2; apply Qmul_le; auto).
  assert (U0 : (0 <= u)%Q) by discriminate.
  assert (W : ((t + v) * inject_Z (Z.of_nat n) * (1 + u) <= inject_Z (Z.of_nat n) * (1 + u))%Q) by (apply Qmul_le; [lra|auto]).
  split; [|split].
  - assert (inject_Z (a + b) < inject_Z (Z.of_nat n + 1))%Q.
    { rewrite !inject_Z_plus. apply Qle_lt_trans with ((t + v) * inject_Z (Z.of_nat n) * (1 + u))%Q; [lra|]. apply Qle_lt_trans with (inject_Z (Z.of_nat n) * (1 + u))%Q; [auto|]. change (inject_Z 1) with 1%Q. lra. }
    rewrite <- Zlt_Qlt in H. lia.
  - unfold a. change 0 with (Qfloor (inject_Z 0)). apply Qfloor_resp_le; auto.
  - unfold b. change 0 with (Qfloor (inject_Z 0)). apply Qfloor_resp_le; auto.
Qed.
(** C204: for double ratios that together make at most one, the masks are a partition and the sizes are
    those counts. *)
Theorem C204_masks : forall t v n idx, (0 <= t)%Q -> (0 <= v)%Q -> (t + v <= 1)%Q -> Z.of_nat n < 2 ^ 53 -> Permutation (List.seq 0 n) idx ->
  let m := split_masks_f t v n idx in
  List.length (k_train m) = n /\ List.length (k_val m) = n /\ List.length (k_test m) = n /\
  (forall j, (j < n)%nat -> exactly_one (marked (k_train m) j) (marked (k_val m) j) (marked (k_test m) j)) /\
  Z.of_nat (how_many (k_train m)) = count_f t n /\ Z.of_nat (how_many (k_val m)) = count_f v n /\
  (how_many (k_train m) + how_many (k_val m) + how_many (k_test m) = n)%nat.
Proof.
  intros t v n idx T V TV B PE m. destruct (sizes_fit t v n T V TV B) as [LE [A0 B0]].
  destruct (masks_partition n (Z.to_nat (count_f t n)) (Z.to_nat (count_f v n)) idx PE) as [L1 [L2 [L3 [X C]]]].
  destruct C as [C1 [C2 C3]]; [lia|]. unfold m, split_masks_f.
  split; [exact L1|]. split; [exact L2|]. split; [exact L3|]. split; [exact X|]. rewrite C1, C2, C3, !Z2Nat.id by auto. split; [reflexivity|]. split; [reflexivity|]. lia.
Qed.
Print Assumptions C204_masks.
(** C204: for ratios as written, p/q and p'/q' with a sum of at most one: the shares, even where the two
    doubles make a little more than one. *)
Theorem C204_written : forall p q p' q' n idx, 0 <= p -> 0 < q -> 0 <= p' -> 0 < q' -> p * q' + p' * q <= q * q' ->
  p * Z.of_nat n < 2 ^ 50 -> p' * Z.of_nat n < 2 ^ 50 -> Permutation (List.seq 0 n) idx ->
  let m := split_masks_f (ratio_f p q) (ratio_f p' q') n idx in
  (forall j, (j < n)%nat -> exactly_one (marked (k_train m) j) (marked (k_val m) j) (marked (k_test m) j)) /\
  share p q n (Z.of_nat (how_many (k_train m))) /\ share p' q' n (Z.of_nat (how_many (k_val m))) /\
  (how_many (k_train m) + how_many (k_val m) + how_many (k_test m) = n)%nat.
Proof.
  intros p q p' q' n idx P Q P' Q' SUM B B' PE m.
  assert (C0 : forall a b, 0 <= a -> 0 < b -> 0 <= count_f (ratio_f a b) n).
  { intros a b A B1. unfold count_f. pose proof (proj1 (count_near a b n A B1)) as X. rewrite trunc_flr by auto. change 0 with (Qfloor (inject_Z 0)). apply Qfloor_resp_le; auto. }
  pose proof (C204_share p q n P Q B) as S1. pose proof (C204_share p' q' n P' Q' B') as S2. pose proof (C0 p q P Q) as A0. pose proof (C0 p' q' P' Q') as B0.
  set (a := count_f (ratio_f p q) n) in *. set (b := count_f (ratio_f p' q') n) in *.
  assert (AL : a <= p * Z.of_nat n / q) by (destruct S1 as [E | [_ E]]; lia). assert (BL : b <= p' * Z.of_nat n / q') by (destruct S2 as [E | [_ E]]; lia).
  pose proof (Z.mul_div_le (p * Z.of_nat n) q Q) as M1. pose proof (Z.mul_div_le (p' * Z.of_nat n) q' Q') as M2.
  assert (LE : a + b <= Z.of_nat n).
  { assert (q * a <= p * Z.of_nat n) by nia. assert (q' * b <= p' * Z.of_nat n) by nia.
    assert (X : q * q' * (a + b) <= (p * q' + p' * q) * Z.of_nat n) by nia.
    assert (Y : (p * q' + p' * q) * Z.of_nat n <= q * q' * Z.of_nat n) by (apply Z.mul_le_mono_nonneg_r; lia).
    assert (0 < q * q') by nia. apply (Zmult_le_reg_r _ _ (q * q')); [lia|]. rewrite !(Z.mul_comm _ (q * q')). lia. }
  destruct (masks_partition n (Z.to_nat a) (Z.to_nat b) idx PE) as [L1 [L2 [L3 [X C]]]]. destruct C as [C1 [C2 C3]]; [lia|]. unfold m, split_masks_f. fold a b.
  split; [exact X|]. rewrite C1, C2, C3, !Z2Nat.id by auto. split; [exact S1|]. split; [exact S2|]. lia.
Qed.
Print Assumptions C204_written.
(** C204: the two parts of a dataset split. *)
Theorem C204_split : forall A r (ds : list A) perm, (0 <= r)%Q -> (r <= 1)%Q -> Z.of_nat (List.length ds) < 2 ^ 53 -> Permutation perm (List.seq 0 (List.length ds)) ->
  exists a b, split_ds_f r ds perm = Ok (a, b) /\ Z.of_nat (List.length a) = count_f r (List.length ds) /\ Permutation (a ++ b) ds.
Proof.
  intros A r ds perm R0 R1 B PM. set (n := List.length ds) in *. destruct (C204_product r n R0 R1 ltac:(lia)) as [[K0 K1] _]. set (k := count_f r n) in *.
  set (r' := (inject_Z k / inject_Z (Z.of_nat n))%Q).
  assert (RN : (inject_Z (Z.of_nat n) * r' == inject_Z k)%Q /\ (0 <= r')%Q /\ (r' <= 1)%Q).
  { unfold r'. destruct (Nat.eq_dec n 0) as [Z0 | NZ].
    - assert (k = 0) by lia. rewrite H, Z0. split; [reflexivity|]. split; discriminate.
    - assert (N0 : (0 < inject_Z (Z.of_nat n))%Q) by (apply Zq; lia). split; [field; intro E; rewrite E in N0; apply (Qlt_irrefl 0 N0)|]. split.
      + apply Qle_shift_div_l; auto. rewrite Qmult_0_l. change 0%Q with (inject_Z 0). rewrite <- Zle_Qle; auto.
      + apply Qle_shift_div_r; auto. rewrite Qmult_1_l. rewrite <- Zle_Qle; auto. }
  destruct RN as [RN [P0 P1]]. assert (T : Qtrunc (inject_Z (Z.of_nat n) * r') = k).
  { rewrite trunc_flr by (rewrite RN; change 0%Q with (inject_Z 0); rewrite <- Zle_Qle; auto). rewrite (Qfloor_comp _ _ RN). apply Qfloor_Z. }
  destruct (L_Transforms2.split_ok A r' ds perm P0 P1 PM) as [a [b [E [L PE]]]]. exists a, b. split; [|split; [|exact PE]].
  - rewrite <- E. unfold split_ds_f, split_ds. fold n. rewrite T. fold k. reflexivity.
  - rewrite L. unfold drops. fold n. assert (F : Qfloor (r' * inject_Z (Z.of_nat n)) = k) by (rewrite (Qmult_comm r'), <- T, trunc_flr; [reflexivity|rewrite RN; change 0%Q with (inject_Z 0); rewrite <- Zle_Qle; auto]). rewrite F. apply Z2Nat.id; auto.
Qed.
Print Assumptions C204_split.
(** The default ratios 0.7 and 0.15 on 90 nodes: 62 and 13, not 63 and 13; on 100 nodes 70 and 15; a ratio of
    0.29 takes 28 of 100. *)
Example C204_case : count_f (ratio_f 7 10) 90 = 62 /\ count_f (ratio_f 15 100) 90 = 13 /\ count_f (ratio_f 7 10) 100 = 70 /\
  count_f (ratio_f 15 100) 100 = 15 /\ count_f (ratio_f 29 100) 100 = 28 /\ count_f (ratio_f 7 10) 10 = 7 /\ Qfloor (ratio_f 7 10 * 10) = 6.
Proof. repeat (split; [vm_compute; reflexivity|]). vm_compute. reflexivity. Qed.
(** 0.8 is not below four fifths, 0.7 is below seven tenths. *)
Example C204_case_up : (inject_Z 4 / inject_Z 5 <= ratio_f 4 5)%Q /\ (ratio_f 7 10 < inject_Z 7 / inject_Z 10)%Q.
Proof. split; [vm_compute; discriminate|vm_compute; reflexivity]. Qed.
