(** Relative errors of chains of rounded operations, and the saved tempo. *)
From Coq Require Import QArith Qabs Qround Qpower Qfield Lia Lqa.
From Verif Require Import PyBase L_Base M_Note L_Note L_Note2 M_Ticks M_Float L_Float.
Open Scope Z_scope.

Definition lam : Q := 9007199254740992 # 9007199254740991.
Fixpoint lp (k : nat) : Q := match k with O => 1%Q | S n => (lam * lp n)%Q end.
Lemma lam_u : (lam * (1 - u) == 1)%Q. Proof. reflexivity. Qed.
Lemma lam_1 : (1 < lam)%Q. Proof. reflexivity. Qed.
Lemma lam_pu : (1 + u <= lam)%Q. Proof. discriminate. Qed.
Lemma lp_pos : forall k, (1 <= lp k)%Q.
Proof. induction k as [|k IH]; [simpl; lra|]. simpl. pose proof lam_1. nra. Qed.
Lemma lp_plus : forall j k, (lp (j + k) == lp j * lp k)%Q.
Proof. induction j as [|j IH]; intros k; simpl; [ring|rewrite IH; ring]. Qed.
Lemma lp_le : forall j k, (j <= k)%nat -> (lp j <= lp k)%Q.
Proof. intros j k H. replace k with ((k - j) + j)%nat by lia. rewrite lp_plus. pose proof (lp_pos (k - j)). pose proof (lp_pos j). nra. Qed.
Lemma lp_bern : forall k, (lp k * (1 - inject_Z (Z.of_nat k) * u) <= 1)%Q.
Proof.
  induction k as [|k IH]; [simpl; change (inject_Z 0) with 0%Q; lra|].
  cbn [lp]. rewrite Nat2Z.inj_succ. unfold Z.succ. rewrite inject_Z_plus. change (inject_Z 1) with 1%Q.
  set (K := inject_Z (Z.of_nat k)) in *. assert (K0 : (0 <= K)%Q) by (unfold K; change 0%Q with (inject_Z 0); rewrite <- Zle_Qle; lia).
  assert (A : (lam * (1 - (K + 1) * u) <= 1 - K * u)%Q).
  { assert (E : (1 - K * u == lam * ((1 - K * u) * (1 - u)))%Q) by (transitivity ((1 - K * u) * (lam * (1 - u)))%Q; [rewrite lam_u; ring|ring]).
    rewrite E. rewrite !(Qmult_comm lam). apply Qmul_le; [discriminate|].
    assert (0 <= K * (u * u))%Q by (apply Qmult_le_0_compat; [auto|discriminate]). 
    assert (E2 : ((1 - K * u) * (1 - u) == 1 - (K + 1) * u + K * (u * u))%Q) by ring. rewrite E2. lra. }
  pose proof (lp_pos k) as L. 
  assert (B : (lp k * (lam * (1 - (K + 1) * u)) <= lp k * (1 - K * u))%Q) by (rewrite !(Qmult_comm (lp k)); apply Qmul_le; [lra|auto]).
  assert (E : (lam * lp k * (1 - (K + 1) * u) == lp k * (lam * (1 - (K + 1) * u)))%Q) by ring. rewrite E. lra.
Qed.
Lemma lp_bound : forall k, Z.of_nat k <= 2 ^ 52 -> (lp k <= 1 + 2 * inject_Z (Z.of_nat k) * u)%Q.
Proof.
  intros k H. pose proof (lp_bern k) as B. set (K := inject_Z (Z.of_nat k)) in *.
  assert (K0 : (0 <= K)%Q) by (unfold K; change 0%Q with (inject_Z 0); rewrite <- Zle_Qle; lia).
  assert (KU : (K * u <= 1 # 2)%Q).
  { assert (K <= inject_Z (2 ^ 52))%Q by (unfold K; rewrite <- Zle_Qle; auto).
    assert (E : (1 # 2 == inject_Z (2 ^ 52) * u)%Q) by reflexivity. rewrite E. apply Qmul_le; [discriminate|auto]. }
  assert (KU0 : (0 <= K * u)%Q) by (apply Qmult_le_0_compat; [auto|discriminate]).
  apply (Qmul_le_inv _ _ (1 - K * u)); [lra|]. eapply Qle_trans; [exact B|].
  assert (E : ((1 + 2 * K * u) * (1 - K * u) == 1 + K * u * (1 - 2 * (K * u)))%Q) by ring. rewrite E.
  assert (0 <= K * u * (1 - 2 * (K * u)))%Q by (apply Qmult_le_0_compat; lra). lra.
Qed.

(** a and b agree up to k roundings. *)
Definition near (k : nat) (a b : Q) : Prop := (0 <= a /\ 0 <= b /\ b <= lp k * a /\ a <= lp k * b)%Q.
Lemma near_refl : forall k a, (0 <= a)%Q -> near k a a.
Proof. intros k a A. pose proof (lp_pos k). repeat split; auto; nra. Qed.
Lemma near_le : forall j k a b, (j <= k)%nat -> near j a b -> near k a b.
Proof. intros j k a b L [A [B [C D]]]. pose proof (lp_le _ _ L). repeat split; auto; nra. Qed.
Lemma near_eq : forall a b, (0 <= a)%Q -> (a == b)%Q -> near 0 a b.
Proof. intros a b A E. unfold near. simpl. repeat split; lra. Qed.
Lemma near_trans : forall j k a b c, near j a b -> near k b c -> near (j + k) a c.
Proof.
  intros j k a b c [A [B [C D]]] [_ [E [F G]]]. unfold near. rewrite lp_plus. pose proof (lp_pos j). pose proof (lp_pos k). repeat split; auto.
  - apply Qle_trans with (lp k * b)%Q; auto. assert (lp k * b <= lp k * (lp j * a))%Q by (rewrite !(Qmult_comm (lp k)); apply Qmul_le; [lra|auto]).
    assert (X : (lp j * lp k * a == lp k * (lp j * a))%Q) by ring. rewrite X; auto.
  - apply Qle_trans with (lp j * b)%Q; auto. assert (lp j * b <= lp j * (lp k * c))%Q by (rewrite !(Qmult_comm (lp j)); apply Qmul_le; [lra|auto]).
    assert (X : (lp j * lp k * c == lp j * (lp k * c))%Q) by ring. rewrite X; auto.
Qed.
Lemma near_fl : forall x, (0 <= x)%Q -> near 1 (fl x) x.
Proof.
  intros x X. destruct (fl_err x X) as [A B]. pose proof (fl_nonneg x X) as C. unfold near. cbn [lp]. rewrite Qmult_1_r. repeat split; auto.
  - assert (E : (x == lam * (x * (1 - u)))%Q) by (transitivity (x * (lam * (1 - u)))%Q; [rewrite lam_u; ring|ring]).
    rewrite E at 1. rewrite !(Qmult_comm lam). apply Qmul_le; [discriminate|auto].
  - eapply Qle_trans; [exact B|]. rewrite (Qmult_comm lam), !(Qmult_comm x). apply Qmul_le; [auto|apply lam_pu].
Qed.
Lemma near_fl' : forall k x y, near k x y -> near (S k) (fl x) y.
Proof. intros k x y N. change (S k) with (1 + k)%nat. eapply near_trans; [apply near_fl; apply N|exact N]. Qed.
Lemma near_mul : forall k a b c, (0 <= c)%Q -> near k a b -> near k (a * c) (b * c).
Proof.
  intros k a b c C [A [B [D E]]]. repeat split; try (apply Qmult_le_0_compat; auto).
  - rewrite Qmult_assoc. apply Qmul_le; auto. - rewrite Qmult_assoc. apply Qmul_le; auto.
Qed.
Lemma near_add : forall k a b c d, near k a b -> near k c d -> near k (a + c) (b + d).
Proof. intros k a b c d [A [B [C D]]] [E [F [G H]]]. repeat split; lra. Qed.
Lemma near_pos : forall k a b, near k a b -> (0 < b)%Q -> (0 < a)%Q.
Proof. intros k a b [A [_ [C _]]] B. destruct (Qlt_le_dec 0 a); auto. assert (a == 0)%Q by lra. rewrite H in C. lra. Qed.
Lemma near_m : forall k a b a' b', (a == a')%Q -> (b == b')%Q -> near k a b -> near k a' b'.
Proof. intros k a b a' b' E1 E2 [A [B [C D]]]. repeat split; [rewrite <- E1|rewrite <- E2|rewrite <- E1, <- E2|rewrite <- E1, <- E2]; auto. Qed.
Lemma near_div : forall k a b c, (0 <= c)%Q -> (0 < b)%Q -> near k a b -> near k (c / a) (c / b).
Proof.
  intros k a b c C B N. pose proof (near_pos _ _ _ N B) as A. destruct N as [_ [_ [D E]]]. pose proof (lp_pos k) as L.
  assert (IA : (0 < / a)%Q) by (apply Qinv_lt_0_compat; auto). assert (IB : (0 < / b)%Q) by (apply Qinv_lt_0_compat; auto).
  assert (IAB : (0 <= c * (/ a * / b))%Q) by (apply Qmult_le_0_compat; [auto|apply Qmult_le_0_compat; lra]).
  assert (EA : (c / a == b * (c * (/ a * / b)))%Q) by (field; lra).
  assert (EB : (c / b == a * (c * (/ a * / b)))%Q) by (field; lra).
  apply (near_m k _ _ _ _ (Qeq_sym _ _ EA) (Qeq_sym _ _ EB)). apply near_mul; auto. repeat split; auto; lra.
Qed.
Lemma near_abs : forall k a b, Z.of_nat k <= 2 ^ 51 -> near k a b -> (Qabsb (a - b) <= b * (inject_Z (Z.of_nat k) / inject_Z (2 ^ 51)))%Q.
Proof.
  intros k a b H [A [B [C D]]]. pose proof (lp_bound k ltac:(lia)) as L. set (K := inject_Z (Z.of_nat k)) in *.
  assert (K0 : (0 <= K)%Q) by (unfold K; change 0%Q with (inject_Z 0); rewrite <- Zle_Qle; lia).
  assert (E : (K / inject_Z (2 ^ 51) == 4 * K * u)%Q) by (unfold Qdiv; assert (X : (/ inject_Z (2 ^ 51) == 4 * u)%Q) by reflexivity; rewrite X; ring). rewrite E.
  assert (KU : (4 * (K * u) <= 1)%Q).
  { assert (K <= inject_Z (2 ^ 51))%Q by (unfold K; rewrite <- Zle_Qle; auto).
    assert (X : (1 == 4 * (inject_Z (2 ^ 51) * u))%Q) by reflexivity. rewrite X.
    assert (K * u <= inject_Z (2 ^ 51) * u)%Q by (apply Qmul_le; [discriminate|auto]). lra. }
  assert (KU0 : (0 <= K * u)%Q) by (apply Qmult_le_0_compat; [auto|discriminate]).
  assert (LA : (lp k * a <= (1 + 2 * K * u) * a)%Q) by (apply Qmul_le; auto).
  assert (LB : (lp k * b <= (1 + 2 * K * u) * b)%Q) by (apply Qmul_le; auto).
  assert (X1 : ((1 + 2 * K * u) * b == b + 2 * (K * u) * b)%Q) by ring.
  assert (X2 : ((1 + 2 * K * u) * a == a + 2 * (K * u) * a)%Q) by ring.
  assert (X3 : (b * (4 * K * u) == 4 * (K * u) * b)%Q) by ring. rewrite X3.
  set (w := (K * u)%Q) in *. clearbody w.
  assert (WB : (0 <= w * b)%Q) by (apply Qmult_le_0_compat; auto).
  assert (WA : (w * a <= 2 * (w * b))%Q). { assert (W4 : (4 * w * b <= 1 * b)%Q) by (apply Qmul_le; auto). assert (a <= 2 * b)%Q by lra.
    assert (X4 : (a * w <= 2 * b * w)%Q) by (apply Qmul_le; auto). assert (X5 : (w * a == a * w)%Q) by ring. assert (X6 : (2 * b * w == 2 * (w * b))%Q) by ring. lra. }
  unfold Qabsb. destruct (Qle_bool 0 (a - b)); lra.
Qed.

(** ** tempo *)
Lemma Zq : forall t, 0 < t -> (0 < inject_Z t)%Q.
Proof. intros. change 0%Q with (inject_Z 0). rewrite <- Zlt_Qlt. auto. Qed.
Lemma scale_f_ok : forall t r, 0 < t -> 0 < r -> exists s, scale_f t r = Ok s /\ (0 < s)%Q /\
  s = fl (60 / fl (fl (60000000 / inject_Z t) * inject_Z r)) /\
  near 3 s (inject_Z t / (1000000 * inject_Z r)).
Proof.
  intros t r T R. pose proof (Zq t T) as TQ. pose proof (Zq r R) as RQ. unfold scale_f. replace (t =? 0) with false by (symmetry; apply Z.eqb_neq; lia).
  assert (N0 : (0 < 60000000 / inject_Z t)%Q) by (apply Qlt_shift_div_l; auto; lra).
  assert (N1 : near 1 (fl (60000000 / inject_Z t)) (60000000 / inject_Z t)) by (apply near_fl; lra).
  assert (N2 : near 2 (fl (fl (60000000 / inject_Z t) * inject_Z r)) (60000000 / inject_Z t * inject_Z r)) by (apply near_fl', near_mul; [lra|auto]).
  assert (B0 : (0 < 60000000 / inject_Z t * inject_Z r)%Q) by (apply Qmult_lt_0_compat; auto).
  pose proof (near_pos _ _ _ N2 B0) as D0.
  assert (N3 : near 3 (fl (60 / fl (fl (60000000 / inject_Z t) * inject_Z r))) (60 / (60000000 / inject_Z t * inject_Z r))) by (apply near_fl', near_div; [lra|auto|auto]).
  destruct (Qeq_bool _ 0) eqn:Z0; [apply Qeq_bool_iff in Z0; lra|].
  eexists. split; [reflexivity|].
  assert (EX : (60 / (60000000 / inject_Z t * inject_Z r) == inject_Z t / (1000000 * inject_Z r))%Q) by (field; split; lra).
  assert (X0 : (0 < inject_Z t / (1000000 * inject_Z r))%Q) by (apply Qlt_shift_div_l; lra).
  assert (N4 : near 3 (fl (60 / fl (fl (60000000 / inject_Z t) * inject_Z r))) (inject_Z t / (1000000 * inject_Z r))) by (eapply near_m; [reflexivity|exact EX|exact N3]).
  split; [apply (near_pos _ _ _ N4); auto|]. split; auto.
Qed.
Lemma saved_near : forall t r s, 0 < t -> 0 < r -> scale_f t r = Ok s ->
  near 6 (fl (60000000 / fl (60 / fl (s * inject_Z r)))) (inject_Z t).
Proof.
  intros t r s T R E. destruct (scale_f_ok t r T R) as [s' [E' [S0 [_ N]]]]. rewrite E in E'. injection E' as <-.
  pose proof (Zq t T) as TQ. pose proof (Zq r R) as RQ.
  set (x := (inject_Z t / (1000000 * inject_Z r))%Q) in *. assert (X0 : (0 < x)%Q) by (apply Qlt_shift_div_l; lra).
  assert (XR : (0 < x * inject_Z r)%Q) by (apply Qmult_lt_0_compat; auto).
  assert (N1 : near 4 (fl (s * inject_Z r)) (x * inject_Z r)) by (apply near_fl', near_mul; [lra|auto]).
  assert (N2 : near 5 (fl (60 / fl (s * inject_Z r))) (60 / (x * inject_Z r))) by (apply near_fl', near_div; [lra|auto|auto]).
  assert (Y0 : (0 < 60 / (x * inject_Z r))%Q) by (apply Qlt_shift_div_l; lra).
  assert (N3 : near 6 (fl (60000000 / fl (60 / fl (s * inject_Z r)))) (60000000 / (60 / (x * inject_Z r)))) by (apply near_fl', near_div; [lra|auto|auto]).
  eapply near_m; [reflexivity| |exact N3]. unfold x. field. lra.
Qed.
Lemma saved_le : forall t r s, 0 < t <= 2 ^ 48 -> 0 < r -> scale_f t r = Ok s -> t - 1 <= saved_tempo r s <= t.
Proof.
  intros t r s T R E. pose proof (saved_near t r s ltac:(lia) R E) as N. unfold saved_tempo.
  set (e := fl (60000000 / fl (60 / fl (s * inject_Z r)))) in *. clearbody e.
  pose proof (near_abs 6 _ _ ltac:(simpl; lia) N) as A. destruct (Qabsb_abs (e - inject_Z t)) as [A1 [A2 _]].
  assert (L : (inject_Z t * (inject_Z (Z.of_nat 6) / inject_Z (2 ^ 51)) <= 3 # 4)%Q).
  { assert (inject_Z t <= inject_Z (2 ^ 48))%Q by (rewrite <- Zle_Qle; lia).
    assert (X : (3 # 4 == inject_Z (2 ^ 48) * (inject_Z (Z.of_nat 6) / inject_Z (2 ^ 51)))%Q) by reflexivity. rewrite X. apply Qmul_le; [discriminate|auto]. }
  destruct (Qfloor_bounds e) as [F1 F2].
  assert (H1 : (inject_Z (Qfloor e) < inject_Z (t + 1))%Q) by (rewrite inject_Z_plus; change (inject_Z 1) with 1%Q; lra).
  assert (H2 : (inject_Z t < inject_Z (Qfloor e + 1 + 1))%Q) by (rewrite !inject_Z_plus; change (inject_Z 1) with 1%Q; lra).
  rewrite <- Zlt_Qlt in H1, H2. lia.
Qed.
