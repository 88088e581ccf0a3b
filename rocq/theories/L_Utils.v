From Coq Require Import QArith Qabs Qround Lia Lqa.
From Verif Require Import PyBase L_Base M_Note L_Note L_Note2 M_Events M_Chord S_Graph L_Chord L_Graph5 L_Transforms M_Utils S_Utils.
Open Scope Z_scope.

Ltac inj := rewrite ?inject_Z_plus, ?inject_Z_mult, ?inject_Z_opp in *; change (inject_Z 1) with 1%Q in *; change (inject_Z 0) with 0%Q in *; change (inject_Z (-1)) with (-1)%Q in *.

Lemma int_part_floor : forall x, int_part x (Qfloor x).
Proof. intro x. exact (Qfloor_bounds x). Qed.
Lemma int_part_unique : forall x y k j, (x == y)%Q -> int_part x k -> int_part y j -> k = j.
Proof.
  intros x y k j E [A B] [C D].
  assert (X : k < j + 1) by (rewrite Zlt_Qlt; inj; lra). assert (Y : j < k + 1) by (rewrite Zlt_Qlt; inj; lra). lia.
Qed.
Lemma int_part_mono : forall x y k j, (x <= y)%Q -> int_part x k -> int_part y j -> k <= j.
Proof. intros x y k j E [A B] [C D]. assert (X : k < j + 1) by (rewrite Zlt_Qlt; inj; lra). lia. Qed.
Lemma trunc_neg : forall x, (x < 0)%Q -> Qtrunc x = - Qfloor (Qabs x).
Proof.
  intros x H. unfold Qtrunc. destruct (Qle_bool 0 x) eqn:E; [apply Qle_bool_iff in E; lra|].
  unfold Qceiling. f_equal. apply Qfloor_comp. rewrite Qabs_neg by lra. reflexivity.
Qed.

Lemma ft_ok : forall t sps thr, (0 < sps)%Q -> (0 <= thr)%Q -> (thr < 1)%Q ->
  exists r, ft_quantize (Num t) (Num sps) (Num thr) = Ok r /\ rounded_at (sps * thr) (t * sps) r.
Proof.
  intros t sps thr A B C. unfold ft_quantize.
  destruct (Qle_bool sps 0) eqn:E1; [apply Qle_bool_iff in E1; lra|].
  destruct (Qltb thr 0) eqn:E2; [apply Qltb_lt in E2; lra|]. destruct (Qle_bool 1 thr) eqn:E3; [apply Qle_bool_iff in E3; lra|]. cbn [orb]. cbv zeta.
  set (x := (t * sps)%Q). set (th := (sps * thr)%Q).
  destruct (Qltb x 0) eqn:E4; [apply Qltb_lt in E4|apply Qltb_ge in E4].
  - unfold mod1. rewrite trunc_neg by auto. assert (AB : (Qabsb x == Qabs x)%Q) by (destruct (Qabsb_abs x) as [Y1 [Y2 [Y3|Y3]]]; apply Qabs_case; intros; lra).
    assert (F : Qfloor (Qabsb x) = Qfloor (Qabs x)) by (apply Qfloor_comp; auto). rewrite F.
    destruct (Qle_bool th (Qabsb x - inject_Z (Qfloor (Qabs x)))) eqn:E5.
    + apply Qle_bool_iff in E5. eexists; split; [reflexivity|]. exists (Qfloor (Qabs x)), (Qfloor (Qabs x) + 1).
      split; [apply int_part_floor|]. split; [left; split; [lra|reflexivity]|]. right. split; [exact E4|lia].
    + apply Qle_bool_false in E5. eexists; split; [reflexivity|]. exists (Qfloor (Qabs x)), (Qfloor (Qabs x)).
      split; [apply int_part_floor|]. split; [right; split; [lra|reflexivity]|]. right. split; [exact E4|lia].
  - unfold mod1. rewrite trunc_floor by auto. assert (AB : (Qabs x == x)%Q) by (apply Qabs_pos; auto).
    assert (IP : int_part (Qabs x) (Qfloor x)) by (destruct (Qfloor_bounds x); split; lra).
    destruct (Qle_bool th (x - inject_Z (Qfloor x))) eqn:E5.
    + apply Qle_bool_iff in E5. eexists; split; [reflexivity|]. exists (Qfloor x), (Qfloor x + 1).
      split; [exact IP|]. split; [left; split; [lra|reflexivity]|]. left. split; [exact E4|lia].
    + apply Qle_bool_false in E5. eexists; split; [reflexivity|]. exists (Qfloor x), (Qfloor x).
      split; [exact IP|]. split; [right; split; [lra|reflexivity]|]. left. split; [exact E4|lia].
Qed.
Lemma ft_inv : forall a b c r, ft_quantize a b c = Ok r ->
  exists t sps thr, a = Num t /\ b = Num sps /\ c = Num thr /\ (0 < sps)%Q /\ (0 <= thr)%Q /\ (thr < 1)%Q.
Proof.
  intros [t|] [sps|] [thr|] r H; try discriminate. exists t, sps, thr. unfold ft_quantize in H.
  destruct (Qle_bool sps 0) eqn:E1; [discriminate|]. destruct (Qltb thr 0) eqn:E2; [discriminate|]. destruct (Qle_bool 1 thr) eqn:E3; [discriminate|].
  apply Qle_bool_false in E1, E3. apply Qltb_ge in E2. repeat split; auto.
Qed.
Lemma ft_errors : forall a b c,
  (ft_quantize a b c = Err TypeError <-> a = Other \/ b = Other \/ c = Other) /\
  (forall e, ft_quantize a b c = Err e -> e = TypeError \/ e = ValueError) /\
  (forall t sps thr, a = Num t -> b = Num sps -> c = Num thr -> (ft_quantize a b c = Err ValueError <-> (sps <= 0)%Q \/ (thr < 0)%Q \/ (1 <= thr)%Q)).
Proof.
  intros a b c.
  assert (K : forall t sps thr, (ft_quantize (Num t) (Num sps) (Num thr) = Err ValueError /\ ((sps <= 0)%Q \/ (thr < 0)%Q \/ (1 <= thr)%Q)) \/
     ((exists r, ft_quantize (Num t) (Num sps) (Num thr) = Ok r) /\ ~ ((sps <= 0)%Q \/ (thr < 0)%Q \/ (1 <= thr)%Q))).
  { intros t sps thr.
    destruct (Qlt_le_dec 0 sps) as [P1|P1]; [|left; split; [|auto]].
    2:{ unfold ft_quantize. apply Qle_bool_iff in P1. rewrite P1. reflexivity. }
    destruct (Qlt_le_dec thr 0) as [P2|P2]; [left; split; [|auto]|].
    { unfold ft_quantize. destruct (Qle_bool sps 0); auto. apply Qltb_lt in P2. rewrite P2. reflexivity. }
    destruct (Qlt_le_dec thr 1) as [P3|P3]; [|left; split; [|auto]].
    2:{ unfold ft_quantize. destruct (Qle_bool sps 0); auto. apply Qle_bool_iff in P3. rewrite P3, orb_true_r. reflexivity. }
    right. destruct (ft_ok t sps thr P1 P2 P3) as [r [R _]]. split; [exists r; auto|]. intros [X|[X|X]]; lra. }
  split; [|split].
  - destruct a as [t|], b as [sps|], c as [thr|]; try (split; [auto|intros; reflexivity]).
    destruct (K t sps thr) as [[R _]|[[r R] _]]; rewrite R; split; try discriminate; intros [X|[X|X]]; discriminate.
  - intros e H. destruct a as [t|], b as [sps|], c as [thr|]; try (injection H as <-; auto).
    destruct (K t sps thr) as [[R _]|[[r R] _]]; rewrite R in H; [injection H as <-; auto|discriminate].
  - intros t sps thr -> -> ->. destruct (K t sps thr) as [[R C]|[[r R] C]]; rewrite R; split; auto; try discriminate. intros X; destruct (C X).
Qed.

Lemma rounded_unique : forall th x r1 r2, rounded_at th x r1 -> rounded_at th x r2 -> r1 = r2.
Proof.
  intros th x r1 r2 [k1 [m1 [A1 [B1 C1]]]] [k2 [m2 [A2 [B2 C2]]]].
  assert (k1 = k2) by (eapply int_part_unique; [reflexivity|eauto|eauto]). subst k2.
  assert (m1 = m2) by (destruct B1 as [[X1 X2]|[X1 X2]], B2 as [[Y1 Y2]|[Y1 Y2]]; subst; auto; exfalso; lra). subst m2.
  destruct C1 as [[X1 X2]|[X1 X2]], C2 as [[Y1 Y2]|[Y1 Y2]]; subst; auto; exfalso; lra.
Qed.
Lemma rounded_comp : forall th th' x x' r, (th == th')%Q -> (x == x')%Q -> rounded_at th x r -> rounded_at th' x' r.
Proof.
  intros th th' x x' r E F [k [m [[A1 A2] [B C]]]]. assert (G : (Qabs x == Qabs x')%Q) by (rewrite F; reflexivity).
  exists k, m. split; [split; lra|]. split; [destruct B as [[B1 B2]|[B1 B2]]; [left|right]; split; auto; lra|].
  destruct C as [[C1 C2]|[C1 C2]]; [left|right]; split; auto; lra.
Qed.
Lemma ft_is : forall t sps thr r, ft_quantize (Num t) (Num sps) (Num thr) = Ok r -> rounded_at (sps * thr) (t * sps) r.
Proof.
  intros t sps thr r H. destruct (ft_inv _ _ _ _ H) as [t' [s' [h' [E1 [E2 [E3 [A [B C]]]]]]]]. injection E1 as <-. injection E2 as <-. injection E3 as <-.
  destruct (ft_ok t sps thr A B C) as [r' [R S]]. rewrite R in H. apply Ok_inj in H. subst. exact S.
Qed.
Lemma floor_inj : forall k, Qfloor (inject_Z k) = k.
Proof. intro k. apply Qfloor_Z. Qed.

(** rounding an explicitly given non-negative number *)
Lemma rounded_small : forall th x r, (0 <= x)%Q -> (x < 1)%Q -> rounded_at th x r -> ((th <= x)%Q /\ r = 1) \/ ((x < th)%Q /\ r = 0).
Proof.
  intros th x r A B [k [m [IP [H1 H2]]]]. assert (AB : (Qabs x == x)%Q) by (apply Qabs_pos; auto).
  assert (k = 0). { eapply int_part_unique; [reflexivity|exact IP|]. split; inj; lra. } subst k. inj.
  destruct H2 as [[_ ->]|[H2 _]]; [|lra]. destruct H1 as [[H1 ->]|[H1 ->]]; [left|right]; split; auto; lra.
Qed.
Lemma ft_documented : forall sps thr, (0 < sps)%Q -> (0 <= thr)%Q -> (thr < 1)%Q ->
  ((forall t, (0 <= t)%Q -> exists r, ft_quantize (Num t) (Num sps) (Num thr) = Ok r /\ rounded_at thr (t * sps) r) <-> (sps == 1)%Q \/ (thr == 0)%Q).
Proof.
  intros sps thr A B C. split.
  - intros H. destruct (Qeq_dec thr 0) as [Z0|Z0]; [auto|]. left.
    assert (P : (0 < thr)%Q) by lra.
    destruct (Q_dec sps 1) as [[L|G]|E]; [| |exact E]; exfalso.
    + assert (X : (sps * thr < thr)%Q) by nra. assert (X0 : (0 < sps * thr)%Q) by nra.
      destruct (H thr) as [r [R S]]; [lra|]. apply ft_is in R.
      assert (E : (thr * sps == sps * thr)%Q) by ring.
      assert (U1 : (0 <= thr * sps)%Q) by (rewrite E; lra). assert (U2 : (thr * sps < 1)%Q) by (rewrite E; lra).
      destruct (rounded_small _ _ _ U1 U2 R) as [[R1 R2]|[R1 R2]], (rounded_small _ _ _ U1 U2 S) as [[S1 S2]|[S1 S2]]; subst; try discriminate; rewrite E in *; lra.
    + assert (X : (thr < sps * thr)%Q) by nra.
      assert (E : (thr / sps * sps == thr)%Q) by (field; lra).
      destruct (H (thr / sps)%Q) as [r [R S]]; [apply Qle_shift_div_l; [auto|lra]|]. apply ft_is in R.
      assert (U1 : (0 <= thr / sps * sps)%Q) by (rewrite E; lra). assert (U2 : (thr / sps * sps < 1)%Q) by (rewrite E; lra).
      destruct (rounded_small _ _ _ U1 U2 R) as [[R1 R2]|[R1 R2]], (rounded_small _ _ _ U1 U2 S) as [[S1 S2]|[S1 S2]]; subst; try discriminate; rewrite E in *; lra.
  - intros E t T. destruct (ft_ok t sps thr A B C) as [r [R S]]. exists r. split; [exact R|]. eapply rounded_comp; [|reflexivity|exact S].
    destruct E as [E|E]; rewrite E; ring.
Qed.
Lemma rounded_near : forall th x r, (0 <= th)%Q -> rounded_at th x r -> (Qabs (inject_Z r - x) <= 1)%Q.
Proof.
  intros th x r T [k [m [[A1 A2] [B C]]]].
  assert (M : (inject_Z m - 1 <= Qabs x)%Q /\ (Qabs x <= inject_Z m + 1)%Q) by (destruct B as [[B1 ->]|[B1 ->]]; inj; split; lra).
  destruct C as [[C1 ->]|[C1 ->]].
  - rewrite Qabs_pos in M by auto. apply Qabs_case; intros; lra.
  - rewrite Qabs_neg in M by lra. inj. apply Qabs_case; intros; lra.
Qed.
Lemma ft_truncates : forall t sps thr r, (1 <= sps * thr)%Q -> ft_quantize (Num t) (Num sps) (Num thr) = Ok r ->
  exists k, int_part (Qabs (t * sps)) k /\ (((0 <= t * sps)%Q /\ r = k) \/ ((t * sps < 0)%Q /\ r = - k)).
Proof.
  intros t sps thr r H R. apply ft_is in R. destruct R as [k [m [IP [B C]]]]. exists k. split; [exact IP|].
  destruct B as [[B ->]|[B ->]]; [destruct IP; exfalso; lra|exact C].
Qed.
Lemma ft_nearest : forall sps thr, (0 < sps)%Q -> (0 <= thr)%Q -> (thr < 1)%Q ->
  ((forall t r, ft_quantize (Num t) (Num sps) (Num thr) = Ok r -> (Qabs (inject_Z r - t * sps) <= 1 # 2)%Q) <-> (sps * thr == 1 # 2)%Q).
Proof.
  intros sps thr A B C. split.
  - intros H.
    assert (G : forall x, (0 <= x)%Q -> (x < 1)%Q -> ((sps * thr <= x)%Q -> (1 # 2 <= x)%Q) /\ ((x < sps * thr)%Q -> (x <= 1 # 2)%Q)).
    { intros x X1 X2. assert (E : (x / sps * sps == x)%Q) by (field; lra).
      destruct (ft_ok (x / sps) sps thr A B C) as [r [R S]]. pose proof (H _ _ R) as N.
      assert (U1 : (0 <= x / sps * sps)%Q) by (rewrite E; lra). assert (U2 : (x / sps * sps < 1)%Q) by (rewrite E; lra).
      rewrite E in N. destruct (rounded_small _ _ _ U1 U2 S) as [[S1 ->]|[S1 ->]]; rewrite E in S1; inj; apply Qabs_Qle_condition in N; split; intros; lra. }
    set (th := (sps * thr)%Q) in *. assert (T0 : (0 <= th)%Q) by (unfold th; nra). clearbody th.
    destruct (Qlt_le_dec th (1 # 2)) as [L|L].
    + destruct (G th) as [G1 _]; lra.
    + destruct (Qlt_le_dec (1 # 2) th) as [L2|L2]; [|lra].
      destruct (Qlt_le_dec th 1) as [L3|L3].
      * destruct (G ((th + (1 # 2)) * (1 # 2))%Q) as [_ G2]; lra.
      * destruct (G (3 # 4)%Q) as [_ G2]; lra.
  - intros E t r R. apply ft_is in R. destruct R as [k [m [[A1 A2] [D F]]]].
    assert (M : (Qabs (inject_Z m - Qabs (t * sps)) <= 1 # 2)%Q) by (apply Qabs_Qle_condition; destruct D as [[D1 ->]|[D1 ->]]; inj; split; lra).
    apply Qabs_Qle_condition in M. apply Qabs_Qle_condition. destruct F as [[F1 ->]|[F1 ->]].
    + rewrite Qabs_pos in M by auto. exact M.
    + rewrite Qabs_neg in M by lra. inj. split; lra.
Qed.
Lemma rounded_mono : forall th x y r1 r2, (0 <= th)%Q -> (x <= y)%Q -> rounded_at th x r1 -> rounded_at th y r2 -> r1 <= r2.
Proof.
  intros th x y r1 r2 T L [k1 [m1 [A1 [B1 C1]]]] [k2 [m2 [A2 [B2 C2]]]].
  assert (MM : forall u v k m k' m', (u <= v)%Q -> int_part u k -> int_part v k' -> (((th <= u - inject_Z k)%Q /\ m = k + 1) \/ ((u - inject_Z k < th)%Q /\ m = k)) ->
      (((th <= v - inject_Z k')%Q /\ m' = k' + 1) \/ ((v - inject_Z k' < th)%Q /\ m' = k')) -> m <= m').
  { intros u v k m k' m' UV IU IV BU BV. assert (KK : k <= k') by (eapply int_part_mono; eauto).
    destruct BU as [[U1 ->]|[U1 ->]], BV as [[V1 ->]|[V1 ->]]; try lia.
    assert (k <> k') by (intros ->; lra). lia. }
  assert (P1 : 0 <= m1). { assert (0 <= k1). { destruct A1. assert (-1 < k1) by (rewrite Zlt_Qlt; inj; pose proof (Qabs_nonneg x); lra). lia. } destruct B1 as [[_ ->]|[_ ->]]; lia. }
  assert (P2 : 0 <= m2). { assert (0 <= k2). { destruct A2. assert (-1 < k2) by (rewrite Zlt_Qlt; inj; pose proof (Qabs_nonneg y); lra). lia. } destruct B2 as [[_ ->]|[_ ->]]; lia. }
  destruct C1 as [[X1 ->]|[X1 ->]], C2 as [[Y1 ->]|[Y1 ->]]; [| exfalso; lra | lia |].
  - eapply MM; [|exact A1|exact A2|exact B1|exact B2]. rewrite !Qabs_pos by auto. exact L.
  - cut (m2 <= m1); [lia|]. eapply MM; [|exact A2|exact A1|exact B2|exact B1]. rewrite !Qabs_neg by lra. lra.
Qed.
Lemma ft_mono : forall sps thr t1 t2 r1 r2, (t1 <= t2)%Q -> ft_quantize (Num t1) (Num sps) (Num thr) = Ok r1 -> ft_quantize (Num t2) (Num sps) (Num thr) = Ok r2 -> r1 <= r2.
Proof.
  intros sps thr t1 t2 r1 r2 L R1 R2. destruct (ft_inv _ _ _ _ R1) as [t' [s' [h' [E1 [E2 [E3 [A [B C]]]]]]]]. injection E2 as <-. injection E3 as <-.
  apply ft_is in R1, R2. eapply rounded_mono; [|idtac|exact R1|exact R2]; [nra|nra].
Qed.
