From Coq Require Import Lia Lqa Qabs Qround.
From Verif Require Import PyBase L_Base M_Note M_Float L_Float L_Float2 L_Song2 M_Rescale S_Rescale.
Open Scope Z_scope.

Lemma min_of_spec : forall l x, smallest (min_of x l) (x :: l).
Proof.
  unfold min_of. induction l as [|y l IH]; intros x; cbn [fold_left].
  - split; [left; auto|]. intros z [<-|[]]. lia.
  - destruct (IH (Z.min x y)) as [A B]. split.
    + destruct A as [A|A]; [|right; right; exact A]. rewrite <- A. destruct (Z.min_spec x y) as [[_ ->]|[_ ->]]; cbn; auto.
    + intros z [<-|[<-|Z0]].
      * specialize (B (Z.min x y) (or_introl eq_refl)). lia.
      * specialize (B (Z.min x y) (or_introl eq_refl)). lia.
      * apply B. right. auto.
Qed.
Lemma max_of_spec : forall l x, largest (max_of x l) (x :: l).
Proof.
  unfold max_of. induction l as [|y l IH]; intros x; cbn [fold_left].
  - split; [left; auto|]. intros z [<-|[]]. lia.
  - destruct (IH (Z.max x y)) as [A B]. split.
    + destruct A as [A|A]; [|right; right; exact A]. rewrite <- A. destruct (Z.max_spec x y) as [[_ ->]|[_ ->]]; cbn; auto.
    + intros z [<-|[<-|Z0]].
      * specialize (B (Z.max x y) (or_introl eq_refl)). lia.
      * specialize (B (Z.max x y) (or_introl eq_refl)). lia.
      * apply B. right. auto.
Qed.
Lemma smallest_unique : forall l a b, smallest a l -> smallest b l -> a = b.
Proof. intros l a b [A1 A2] [B1 B2]. apply A2 in B1. apply B2 in A1. lia. Qed.
Lemma largest_unique : forall l a b, largest a l -> largest b l -> a = b.
Proof. intros l a b [A1 A2] [B1 B2]. apply A2 in B1. apply B2 in A1. lia. Qed.
Lemma clip_floor : forall x, (0 <= x)%Q -> clip_int x = Z.min 127 (Qfloor x).
Proof.
  intros x X. unfold clip_int. destruct (Qltb x 0) eqn:E; [apply Qltb_lt in E; lra|]. destruct (Qltb 127 x) eqn:F.
  - apply Qltb_lt in F. change (Qfloor 127) with 127. assert (127 <= Qfloor x) by (change 127 with (Qfloor 127); apply Qfloor_resp_le; lra). lia.
  - apply Qltb_ge in F. assert (Qfloor x <= 127) by (change 127 with (Qfloor 127); apply Qfloor_resp_le; lra). lia.
Qed.
(** Rounding does not move a quotient of small ints across an int. *)
Lemma div_add_floor : forall a d t, 0 <= a -> 0 < d <= 2 ^ 40 -> 0 <= t -> a / d + t <= 127 ->
  Qfloor (fl (fl (inject_Z a / inject_Z d) + inject_Z t)) = a / d + t.
Proof.
  intros a d t A [D0 D] T K. set (q := (inject_Z a / inject_Z d)%Q). set (k := a / d).
  assert (DP : (0 < inject_Z d)%Q) by (change 0%Q with (inject_Z 0); rewrite <- Zlt_Qlt; lia).
  assert (QD : (q * inject_Z d == inject_Z a)%Q) by (unfold q; field; lra).
  pose proof (Z.div_mod a d ltac:(lia)) as DM. pose proof (Z.mod_pos_bound a d D0) as MB. fold k in DM, K.
  assert (K0 : 0 <= k) by (apply Z.div_pos; lia).
  assert (Q1 : (inject_Z k <= q)%Q).
  { apply (Qmul_le_inv _ _ (inject_Z d)); auto. rewrite QD, <- inject_Z_mult, <- Zle_Qle. nia. }
  assert (Q2 : (q * inject_Z d + 1 <= (inject_Z k + 1) * inject_Z d)%Q).
  { rewrite QD. change 1%Q with (inject_Z 1). rewrite <- !inject_Z_plus, <- inject_Z_mult. rewrite <- Zle_Qle. nia. }
  assert (DQ : (inject_Z d <= inject_Z (2 ^ 40))%Q) by (rewrite <- Zle_Qle; auto). change (inject_Z (2 ^ 40)) with 1099511627776%Q in DQ.
  assert (Q3 : (q <= inject_Z k + 1 - (1 # 1099511627776))%Q).
  { destruct (Qlt_le_dec (inject_Z k + 1 - (1 # 1099511627776)) q) as [G|G]; auto. exfalso.
    assert (X : ((inject_Z k + 1 - q) * inject_Z d < (1 # 1099511627776) * inject_Z d)%Q) by (apply Qmul_lt; lra).
    assert (Y : ((1 # 1099511627776) * inject_Z d <= 1)%Q) by lra. lra. }
  assert (KQ : (0 <= inject_Z k <= 127 - inject_Z t)%Q). { split; [change 0%Q with (inject_Z 0); rewrite <- Zle_Qle; auto|]. assert (X : (inject_Z (k + t) <= inject_Z 127)%Q) by (rewrite <- Zle_Qle; auto). rewrite inject_Z_plus in X. change (inject_Z 127) with 127%Q in X. lra. }
  assert (TQ : (0 <= inject_Z t)%Q) by (change 0%Q with (inject_Z 0); rewrite <- Zle_Qle; auto).
  assert (F1 : (inject_Z k <= fl q)%Q). { rewrite <- (fl_Z k) by lia. apply fl_mono0; tauto. }
  destruct (fl_err q ltac:(lra)) as [_ F2].
  assert (S1 : (inject_Z (k + t) <= fl (fl q + inject_Z t))%Q). { rewrite <- (fl_Z (k + t)) by lia. apply fl_mono0; rewrite inject_Z_plus; lra. }
  destruct (fl_err (fl q + inject_Z t) ltac:(lra)) as [_ S2].
  assert (u1 : (u == 1 # 9007199254740992)%Q) by reflexivity. 
  assert (F3 : (fl q <= inject_Z k + 1 - (1 # 1099511627776) + (128 # 9007199254740992))%Q) by (rewrite u1 in F2; lra).
  apply Qfloor_unique; auto. rewrite inject_Z_plus. rewrite u1 in S2. lra.
Qed.
