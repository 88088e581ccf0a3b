(** Interpolation in double precision. *)
From Coq Require Import Sorted Permutation Lqa Lia.
From Verif Require Import PyBase L_Base M_Note L_Note M_Float L_Float L_Float2 L_NoteF L_Snap L_UtilsF3 M_Beats M_Adjust S_Adjust L_Adjust L_Adjust2 L_Adjust3 L_Adjust4 S_Snap S_AdjustF M_AdjustF.
Open Scope Q_scope.

Definition nonneg (m : list (Q * Q)) : Prop := forall c, In c m -> 0 <= snd c.
Definition doubled (m : list (Q * Q)) : Prop := forall c, In c m -> fl (snd c) == snd c.
Lemma slope_near : forall x0 y0 x1 y1, x0 < x1 -> y0 <= y1 -> near 3 (slope_f x0 y0 x1 y1) ((y1 - y0) / (x1 - x0)).
Proof.
  intros x0 y0 x1 y1 X Y. unfold slope_f. apply near_fl'. apply (near_trans 1 1 _ (fl (y1 - y0) / (x1 - x0))).
  - apply near_div; [apply fl_nonneg; lra|lra|apply near_fl; lra].
  - apply near_quot; [lra|apply near_fl; lra].
Qed.
Lemma slope_nonneg : forall x0 y0 x1 y1, x0 < x1 -> y0 <= y1 -> 0 <= slope_f x0 y0 x1 y1.
Proof. intros x0 y0 x1 y1 X Y. destruct (slope_near x0 y0 x1 y1 X Y); auto. Qed.
Lemma inner_near : forall x0 y0 x1 y1 x, x0 < x1 -> 0 <= y0 -> y0 <= y1 -> x0 <= x ->
  near 6 (fl (fl (slope_f x0 y0 x1 y1 * fl (x - x0)) + y0)) ((y1 - y0) / (x1 - x0) * (x - x0) + y0).
Proof.
  intros x0 y0 x1 y1 x X Y0 Y H. pose proof (slope_near x0 y0 x1 y1 X Y) as S. pose proof (slope_nonneg x0 y0 x1 y1 X Y) as SN. destruct (slope x0 y0 x1 y1 X Y) as [K _].
  apply near_fl'. apply near_add; [|apply near_refl; auto]. apply near_fl'. apply (near_trans 1 3 _ (slope_f x0 y0 x1 y1 * (x - x0))).
  - apply (near_m 1 (fl (x - x0) * slope_f x0 y0 x1 y1) ((x - x0) * slope_f x0 y0 x1 y1)); [ring|ring|]. apply near_mul; auto. apply near_fl; lra.
  - apply near_mul; [lra|exact S].
Qed.
Lemma interp_from_near : forall rest x0 y0 x, asc ((x0, y0) :: rest) -> nonneg ((x0, y0) :: rest) -> x0 <= x -> near 6 (interp_from_f x0 y0 rest x) (interp_from x0 y0 rest x).
Proof.
  induction rest as [|[x1 y1] r IH]; intros x0 y0 x S P H; cbn [interp_from_f interp_from].
  - apply near_refl. apply (P (x0, y0)); left; auto.
  - pose proof (asc_tail _ _ (x1, y1) S (or_introl eq_refl)) as [L1 L2]. cbn [fst snd] in L1, L2.
    pose proof (P (x0, y0) (or_introl eq_refl)) as P0. cbn [snd] in P0. qc (Qltb x x1).
    + destruct (Qeq_bool x0 x) eqn:E; [|apply inner_near; auto].
      apply Qeq_bool_iff in E. apply (near_le 0); [lia|]. apply near_eq; auto.
      assert (Z : x - x0 == 0) by (rewrite E; ring). rewrite Z. ring.
    + apply IH; auto; [inversion S; auto|intros c Hc; apply P; right; auto].
Qed.
Lemma interp_near : forall m x, asc m -> nonneg m -> near 6 (interp_f m x) (interp m x).
Proof.
  intros [|[x0 y0] r] x S P; [apply near_refl; cbn; lra|]. cbn [interp_f interp]. qc (Qltb x x0).
  - apply near_refl. apply (P (x0, y0)); left; auto.
  - apply interp_from_near; auto.
Qed.
Lemma near6_within : forall a b, near 6 a b -> within warp_error a b.
Proof.
  intros a b N. unfold within. destruct N as (N1 & N2 & N3 & N4). pose proof (near_abs 6 a b ltac:(cbv; discriminate) (conj N1 (conj N2 (conj N3 N4)))) as K.
  eapply Qle_trans; [exact K|]. rewrite !(Qmult_comm b). apply Qmult_le_compat_r; auto. unfold warp_error. cbv. discriminate.
Qed.
Lemma interp_from_at : forall rest x0 y0 x y x', asc ((x0, y0) :: rest) -> In (x, y) ((x0, y0) :: rest) -> x' == x -> interp_from_f x0 y0 rest x' = y.
Proof.
  induction rest as [|[x1 y1] r IH]; intros x0 y0 x y x' S H E; cbn [interp_from_f].
  - destruct H as [H|[]]. injection H as <- <-. reflexivity.
  - pose proof (asc_tail _ _ (x1, y1) S (or_introl eq_refl)) as [L1 L2]. cbn [fst snd] in L1, L2.
    assert (S1 : asc ((x1, y1) :: r)) by (inversion S; auto). destruct H as [H|H].
    + injection H as <- <-. qc (Qltb x' x1); [|lra]. assert (E2 : Qeq_bool x0 x' = true) by (apply Qeq_bool_iff; lra). rewrite E2. reflexivity.
    + assert (L : x1 <= x). { destruct H as [H|H]; [injection H as <- <-; lra|]. pose proof (asc_tail _ _ _ S1 H) as [Q1 _]. cbn in Q1. lra. }
      qc (Qltb x' x1); [lra|]. apply (IH x1 y1 x y x' S1 H E).
Qed.
Lemma interp_f_at : forall m x y x', asc m -> In (x, y) m -> x' == x -> interp_f m x' = y.
Proof.
  intros [|[x0 y0] r] x y x' S H E; [contradiction|]. cbn [interp_f].
  assert (L : x0 <= x). { destruct H as [H|H]; [injection H as <- <-; lra|]. pose proof (asc_tail _ _ _ S H) as [Q1 _]. cbn in Q1. lra. }
  qc (Qltb x' x0); [lra|]. apply (interp_from_at r x0 y0 x y x' S H E).
Qed.
Lemma interp_from_late : forall rest x0 y0 x, asc ((x0, y0) :: rest) -> fst (last rest (x0, y0)) <= x -> interp_from_f x0 y0 rest x = snd (last rest (x0, y0)).
Proof.
  induction rest as [|[x1 y1] r IH]; intros x0 y0 x S H; [reflexivity|].
  assert (S1 : asc ((x1, y1) :: r)) by (inversion S; auto). pose proof (last_cons _ r (x1, y1) (x0, y0)) as EL. rewrite EL in *. cbn [interp_from_f]. assert (L : x1 <= fst (last r (x1, y1))).
  { assert (X : In (last r (x1, y1)) ((x1, y1) :: r)). { destruct (last_in2 _ r (x1, y1)) as [X|[-> X]]; [right; auto|left; reflexivity]. }
    destruct X as [<- |X]; [cbn; lra|]. pose proof (asc_tail _ _ _ S1 X) as [Q1 _]. cbn in Q1. lra. }
  qc (Qltb x x1); [lra|]. apply IH; auto.
Qed.
Lemma interp_f_late : forall m x, asc m -> m <> [] -> last_x m <= x -> interp_f m x = last_y m.
Proof.
  intros [|[x0 y0] r] x S NE H; [congruence|]. unfold last_x, last_y in *. rewrite last_cons in *. cbn [interp_f].
  assert (L : x0 <= fst (last r (x0, y0))).
  { destruct (last_in2 _ r (x0, y0)) as [X|[-> X]]; [|cbn; lra]. pose proof (asc_tail _ _ _ S X) as [Q1 _]. cbn in Q1. lra. }
  qc (Qltb x x0); [lra|]. apply interp_from_late; auto.
Qed.
Lemma interp_f_early : forall m x, asc m -> x <= first_x m -> interp_f m x = first_y m.
Proof.
  intros [|[x0 y0] r] x S H; [reflexivity|]. cbn [first_x first_y] in *. cbn [interp_f]. qc (Qltb x x0); [reflexivity|].
  apply (interp_from_at r x0 y0 x0 y0 x S (or_introl eq_refl)). lra.
Qed.
(** Inside one zone. *)
Lemma interp_f_zone : forall l r x0 y0 x1 y1 x, asc (l ++ (x0, y0) :: (x1, y1) :: r) -> x0 <= x -> x < x1 ->
  interp_f (l ++ (x0, y0) :: (x1, y1) :: r) x = if Qeq_bool x0 x then y0 else fl (fl (slope_f x0 y0 x1 y1 * fl (x - x0)) + y0).
Proof.
  assert (G : forall l a b r x0 y0 x1 y1 x, asc ((a, b) :: l ++ (x0, y0) :: (x1, y1) :: r) -> x0 <= x -> x < x1 ->
    interp_from_f a b (l ++ (x0, y0) :: (x1, y1) :: r) x = if Qeq_bool x0 x then y0 else fl (fl (slope_f x0 y0 x1 y1 * fl (x - x0)) + y0)).
  { induction l as [|[c d] l IH]; intros a b r x0 y0 x1 y1 x S H1 H2; cbn [app interp_from_f].
    - qc (Qltb x x0); [lra|]. cbn [interp_from_f]. qc (Qltb x x1); [reflexivity|lra].
    - inversion S as [|? ? S1 F]; subst. pose proof (asc_tail _ _ (x0, y0) S1 ltac:(apply in_app_iff; right; left; auto)) as [Q1 _]. cbn [fst] in Q1.
      qc (Qltb x c); [lra|]. apply IH; auto. }
  intros [|[a b] l] r x0 y0 x1 y1 x S H1 H2.
  - cbn [app interp_f]. qc (Qltb x x0); [lra|]. cbn [interp_from_f]. qc (Qltb x x1); [reflexivity|lra].
  - cbn [app interp_f]. pose proof (asc_tail _ _ (x0, y0) S ltac:(apply in_app_iff; right; left; auto)) as [Q1 _]. cbn [fst] in Q1.
    qc (Qltb x a); [lra|]. apply G; auto.
Qed.
Lemma inner_low : forall x0 y0 x1 y1 x, x0 < x1 -> y0 <= y1 -> fl y0 == y0 -> x0 <= x -> y0 <= fl (fl (slope_f x0 y0 x1 y1 * fl (x - x0)) + y0).
Proof.
  intros x0 y0 x1 y1 x X Y D H. pose proof (slope_nonneg x0 y0 x1 y1 X Y) as S. assert (P : 0 <= fl (slope_f x0 y0 x1 y1 * fl (x - x0))).
  { apply fl_nonneg. apply Qmult_le_0_compat; auto. apply fl_nonneg; lra. }
  rewrite <- D at 1. apply fl_mono. lra.
Qed.
Lemma inner_mono : forall x0 y0 x1 y1 x x', x0 < x1 -> y0 <= y1 -> x <= x' ->
  fl (fl (slope_f x0 y0 x1 y1 * fl (x - x0)) + y0) <= fl (fl (slope_f x0 y0 x1 y1 * fl (x' - x0)) + y0).
Proof.
  intros x0 y0 x1 y1 x x' X Y H. pose proof (slope_nonneg x0 y0 x1 y1 X Y) as S. apply fl_mono. apply Qplus_le_compat; [|lra]. apply fl_mono.
  rewrite !(Qmult_comm (slope_f x0 y0 x1 y1)). apply Qmult_le_compat_r; auto. apply fl_mono. lra.
Qed.
Lemma interp_warps : forall m, m <> [] -> asc m -> nonneg m -> doubled m -> warps m (interp_f m).
Proof.
  intros m NE A P D. assert (E : first_x m = fst (begins m) /\ first_y m = snd (begins m) /\ last_x m = fst (ends m) /\ last_y m = snd (ends m)) by (destruct m as [|[? ?] ?]; auto).
  destruct E as (E1 & E2 & E3 & E4). unfold warps. rewrite <- E1, <- E2, <- E3, <- E4. split; [|split; [|split; [|split]]].
  - intros x y x' H1 H2. apply (interp_f_at m x y); auto.
  - intros x H. apply interp_f_early; auto.
  - intros x H. apply interp_f_late; auto.
  - intros x y I. pose proof (image_unique m x _ _ A NE I (interp_image m x A)) as EQ. pose proof (near6_within _ _ (interp_near m x A P)) as W. unfold within in *. rewrite EQ at 2.
    rewrite (Qabsb_m (interp_f m x - y) (interp_f m x - interp m x)); [exact W|rewrite EQ; reflexivity].
  - intros l r x0 y0 x1 y1 x x' Em H0 H1 H2. rewrite Em in A, D |- *.
    assert (L : x0 < x1 /\ y0 <= y1). { clear -A. induction l as [|a l IH]; cbn in A; inversion A as [|? ? S1 F]; subst; auto. rewrite Forall_forall in F. apply (F (x1, y1) (or_introl eq_refl)). }
    destruct L as [L1 L2]. assert (Dy : fl y0 == y0) by (apply (D (x0, y0)); apply in_app_iff; right; left; auto).
    rewrite !interp_f_zone by (auto; lra). destruct (Qeq_bool x0 x) eqn:B1.
    + split; [lra|]. destruct (Qeq_bool x0 x') eqn:B2; [lra|]. apply inner_low; auto; lra.
    + split; [apply inner_low; auto; lra|]. destruct (Qeq_bool x0 x') eqn:B2; [|apply inner_mono; auto].
      apply Qeq_bool_iff in B2. assert (x0 == x) by lra. apply Qeq_bool_iff in H. congruence.
Qed.
