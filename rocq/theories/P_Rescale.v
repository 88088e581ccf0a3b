(** Property C199: rescaling velocities. *)
From Coq Require Import Lia Lqa Qabs Qround.
From Verif Require Import PyBase L_Base M_Note L_Note M_Float L_Float L_Float2 L_Song2 M_Rescale S_Rescale L_Rescale.
Open Scope Z_scope.

(** C199: velocities that are not all equal are mapped linearly, whole parts taken, so that rounding in double
    precision has no effect; no velocities are a ValueError. *)
Theorem C199_rescale : forall nan l tmin tmax mn mx,
  0 <= tmin <= tmax -> tmax <= 127 -> smallest mn l -> largest mx l -> mn < mx <= mn + 2 ^ 40 ->
  rescale_velocities nan l tmin tmax = Ok (map (fun v => tmin + (v - mn) * (tmax - tmin) / (mx - mn)) l).
Proof.
  intros nan l tmin tmax mn mx T1 T2 MN MX D. destruct l as [|x r]; [destruct MN as [[] _]|]. unfold rescale_velocities.
  rewrite (smallest_unique _ _ _ (min_of_spec r x) MN), (largest_unique _ _ _ (max_of_spec r x) MX). cbv zeta. f_equal. apply map_ext_in. intros v V.
  destruct (Z.eqb_spec (mx - mn) 0); [lia|]. destruct MN as [_ MN], MX as [_ MX]. specialize (MN v V). specialize (MX v V).
  assert (A : 0 <= (v - mn) * (tmax - tmin)) by nia.
  assert (K : 0 <= (v - mn) * (tmax - tmin) / (mx - mn) <= tmax - tmin).
  { split; [apply Z.div_pos; lia|]. apply Z.div_le_upper_bound; [lia|]. nia. }
  assert (F : Qfloor (fl (fl (inject_Z ((v - mn) * (tmax - tmin)) / inject_Z (mx - mn)) + inject_Z tmin)) = (v - mn) * (tmax - tmin) / (mx - mn) + tmin) by (apply div_add_floor; lia).
  rewrite clip_floor.
  - rewrite F. lia.
  - destruct (Qlt_le_dec (fl (fl (inject_Z ((v - mn) * (tmax - tmin)) / inject_Z (mx - mn)) + inject_Z tmin)) 0) as [G|G]; auto. exfalso.
    pose proof (Qfloor_le (fl (fl (inject_Z ((v - mn) * (tmax - tmin)) / inject_Z (mx - mn)) + inject_Z tmin))) as H. rewrite F in H.
    assert (X : (0 <= inject_Z ((v - mn) * (tmax - tmin) / (mx - mn) + tmin))%Q) by (change 0%Q with (inject_Z 0); rewrite <- Zle_Qle; lia). lra.
Qed.
Print Assumptions C199_rescale.
(** C199: so the quietest note gets the least target velocity, the loudest one the greatest, the others lie
    between, and no two notes change their order. *)
Theorem C199_bounds : forall nan l tmin tmax mn mx,
  0 <= tmin <= tmax -> tmax <= 127 -> smallest mn l -> largest mx l -> mn < mx <= mn + 2 ^ 40 ->
  exists f, rescale_velocities nan l tmin tmax = Ok (map f l) /\ f mn = tmin /\ f mx = tmax /\
    (forall v, In v l -> tmin <= f v <= tmax) /\ (forall v w, v <= w -> f v <= f w).
Proof.
  intros nan l tmin tmax mn mx T1 T2 MN MX D. eexists. split; [apply (C199_rescale nan l tmin tmax mn mx); auto|]. cbv beta. split; [rewrite Z.sub_diag, Z.div_0_l; lia|].
  split; [rewrite Z.mul_comm, Z.div_mul; lia|]. split.
  - intros v V. destruct MN as [_ MN], MX as [_ MX]. specialize (MN v V). specialize (MX v V). split.
    + assert (0 <= (v - mn) * (tmax - tmin) / (mx - mn)) by (apply Z.div_pos; nia). lia.
    + assert ((v - mn) * (tmax - tmin) / (mx - mn) <= tmax - tmin) by (apply Z.div_le_upper_bound; nia). lia.
  - intros v w L. assert ((v - mn) * (tmax - tmin) / (mx - mn) <= (w - mn) * (tmax - tmin) / (mx - mn)) by (apply Z.div_le_mono; nia). lia.
Qed.
Print Assumptions C199_bounds.
(** C199: rescaling again changes nothing. *)
Theorem C199_again : forall nan l tmin tmax r, 0 <= tmin < tmax -> tmax <= 127 ->
  (exists a b, In a l /\ In b l /\ a < b) -> (forall a b, In a l -> In b l -> b <= a + 2 ^ 40) ->
  rescale_velocities nan l tmin tmax = Ok r -> rescale_velocities nan r tmin tmax = Ok r.
Proof.
  intros nan l tmin tmax r T1 T2 (a & b & A & B & AB) SP E. destruct l as [|x l0]; [destruct A|]. set (l := x :: l0) in *.
  pose proof (min_of_spec l0 x) as MN. pose proof (max_of_spec l0 x) as MX. fold l in MN, MX. set (mn := min_of x l0) in *. set (mx := max_of x l0) in *.
  assert (D : mn < mx <= mn + 2 ^ 40). { destruct MN as [M1 M2], MX as [X1 X2]. pose proof (M2 a A). pose proof (X2 b B). pose proof (SP mn mx M1 X1). lia. }
  destruct (C199_bounds nan l tmin tmax mn mx ltac:(lia) T2 MN MX D) as (f & F & F1 & F2 & F3 & F4). rewrite F in E. apply Ok_inj in E. subst r.
  rewrite (C199_rescale nan (map f l) tmin tmax tmin tmax).
  - f_equal. rewrite <- (map_id (map f l)) at 2. apply map_ext_in. intros v V. apply in_map_iff in V as [w [<- Hw]]. rewrite Z.div_mul by lia. lia.
  - lia.
  - auto.
  - split; [apply in_map_iff; exists mn; split; auto; apply MN|]. intros v V. apply in_map_iff in V as [w [<- Hw]]. apply F3; auto.
  - split; [apply in_map_iff; exists mx; split; auto; apply MX|]. intros v V. apply in_map_iff in V as [w [<- Hw]]. apply F3; auto.
  - lia.
Qed.
Print Assumptions C199_again.
(** C199: no velocities are refused; equal ones all become what the platform makes of 0/0. *)
Theorem C199_edges : forall nan tmin tmax,
  rescale_velocities nan [] tmin tmax = Err ValueError /\
  forall v n, rescale_velocities nan (repeat v (Datatypes.S n)) tmin tmax = Ok (repeat nan (Datatypes.S n)).
Proof.
  intros nan tmin tmax. split; [reflexivity|]. intros v n. change (repeat v (Datatypes.S n)) with (v :: repeat v n). unfold rescale_velocities. cbv zeta.
  assert (MN : min_of v (repeat v n) = v). { destruct (min_of_spec (repeat v n) v) as [[A|A] _]; auto. apply repeat_spec in A. auto. }
  assert (MX : max_of v (repeat v n) = v). { destruct (max_of_spec (repeat v n) v) as [[A|A] _]; auto. apply repeat_spec in A. auto. }
  rewrite MN, MX. f_equal. change (v :: repeat v n) with (repeat v (Datatypes.S n)). rewrite Z.sub_diag. cbn [Z.eqb].
  induction (Datatypes.S n) as [|m IH]; [reflexivity|]. cbn [repeat map]. f_equal. exact IH.
Qed.
Print Assumptions C199_edges.

Lemma sum_pos : forall l a, (forall v, In v l -> 0 <= v) -> a <= fold_left Z.add l a /\ forall v, In v l -> a + v <= fold_left Z.add l a.
Proof.
  induction l as [|x l IH]; intros a H; cbn [fold_left]; [split; [lia|intros v []]|]. destruct (IH (a + x)) as [I1 I2]; [intros; apply H; right; auto|]. assert (0 <= x) by (apply H; left; auto).
  split; [lia|]. intros v [<-|V]; [lia|]. specialize (I2 v V). assert (0 <= v) by (apply H; right; auto). lia.
Qed.
(** C199: scaling velocities by a factor around their mean multiplies by the factor, up to one part in 2^49, takes
    the whole part and stops at 127: the mean has no effect.  The order of the notes is kept. *)
Theorem C199_scale : forall nan l f, (forall v, In v l -> 0 <= v) -> (exists v, In v l /\ 0 < v) -> (0 <= f)%Q ->
  exists g, scale_relative_velocities nan l f = map g l /\
    (forall v, In v l -> about (inject_Z v * f) (g v) /\ 0 <= g v <= 127) /\
    (forall v w, In v l -> In w l -> v <= w -> g v <= g w).
Proof.
  intros nan l f H0 [x [X XP]] F. unfold scale_relative_velocities. set (s := fold_left Z.add l 0). set (avg := fl (inject_Z s / inject_Z (Z.of_nat (List.length l)))).
  assert (SP : 0 < s) by (destruct (sum_pos l 0 H0) as [_ H]; specialize (H x X); fold s in H; lia).
  assert (LP : (0 < inject_Z (Z.of_nat (List.length l)))%Q) by (change 0%Q with (inject_Z 0); rewrite <- Zlt_Qlt; destruct l; [destruct X|cbn; lia]).
  assert (AP : (0 < avg)%Q). { apply fl_gt0. apply Qlt_shift_div_l; auto. rewrite Qmult_0_l. change 0%Q with (inject_Z 0). rewrite <- Zlt_Qlt. auto. }
  exists (fun v => clip_int (fl (fl (fl (inject_Z v / avg) * f) * avg))). split.
  { apply map_ext. intros v. destruct (Qeq_bool avg 0) eqn:E; [apply Qeq_bool_iff in E; lra|reflexivity]. }
  assert (NN : forall v, In v l -> (0 <= inject_Z v / avg)%Q).
  { intros v V. apply Qle_shift_div_l; auto. rewrite Qmult_0_l. change 0%Q with (inject_Z 0). rewrite <- Zle_Qle. auto. }
  assert (N2 : forall v, In v l -> (0 <= fl (inject_Z v / avg) * f)%Q) by (intros v V; apply Qmult_le_0_compat; auto; apply fl_nonneg; auto).
  assert (N3 : forall v, In v l -> (0 <= fl (fl (inject_Z v / avg) * f) * avg)%Q) by (intros v V; apply Qmult_le_0_compat; [apply fl_nonneg; auto|lra]).
  split.
  - intros v V. set (y := fl (fl (fl (inject_Z v / avg) * f) * avg)). assert (Y0 : (0 <= y)%Q) by (apply fl_nonneg; auto). rewrite clip_floor by auto.
    assert (NR : near 3 y (inject_Z v * f)).
    { apply (near_m 3 y (inject_Z v / avg * f * avg)); [reflexivity|field; lra|]. apply near_fl'. apply near_mul; [lra|]. apply near_fl'. apply near_mul; auto. apply near_fl; auto. }
    split; [exists y; split; auto|].
    + pose proof (near_abs 3 _ _ ltac:(cbn; lia) NR) as Q. rewrite Qabsb_Qabs in Q. eapply Qle_trans; [exact Q|].
      assert (V0 : (0 <= inject_Z v * f)%Q) by (destruct NR as [_ [? _]]; auto).
      change (inject_Z (Z.of_nat 3) / inject_Z (2 ^ 51))%Q with (3 # 2251799813685248)%Q. unfold Qdiv. change (/ inject_Z (2 ^ 49))%Q with (1 # 562949953421312)%Q. lra.
    + assert (0 <= Qfloor y) by (change 0 with (Qfloor 0); apply Qfloor_resp_le; auto). lia.
  - intros v w V W L. assert (LQ : (inject_Z v <= inject_Z w)%Q) by (rewrite <- Zle_Qle; auto).
    assert (L1 : (inject_Z v / avg <= inject_Z w / avg)%Q). { unfold Qdiv. apply Qmul_le; auto. apply Qlt_le_weak, Qinv_lt_0_compat; auto. }
    assert (L2 : (fl (fl (fl (inject_Z v / avg) * f) * avg) <= fl (fl (fl (inject_Z w / avg) * f) * avg))%Q).
    { apply fl_mono0; auto. apply Qmul_le; [lra|]. apply fl_mono0; auto. apply Qmul_le; auto. apply fl_mono0; auto. }
    rewrite !clip_floor by (apply fl_nonneg; auto). apply Qfloor_resp_le in L2. lia.
Qed.
Print Assumptions C199_scale.
(** C199: the factor 1 keeps a velocity or lowers it by one (never 0). *)
Theorem C199_one : forall nan l, (forall v, In v l -> 0 <= v <= 127) -> (exists v, In v l /\ 0 < v) ->
  Forall2 (fun v w => w = v \/ (0 < v /\ w = v - 1)) l (scale_relative_velocities nan l 1).
Proof.
  intros nan l H EX. destruct (C199_scale nan l 1 (fun v V => proj1 (H v V)) EX ltac:(lra)) as (g & E & G & _). rewrite E.
  assert (K : forall k, (forall v, In v k -> In v l) -> Forall2 (fun v w => w = v \/ (0 < v /\ w = v - 1)) k (map g k)).
  { induction k as [|v k IH]; intros I; cbn [map]; constructor; [|apply IH; intros; apply I; right; auto]. assert (V : In v l) by (apply I; left; auto). destruct (H v V) as [V0 V1]. destruct (G v V) as [(y & Y & ->) [G0 _]].
    assert (VQ : (0 <= inject_Z v <= 127)%Q) by (split; [change 0%Q with (inject_Z 0)|change 127%Q with (inject_Z 127)]; rewrite <- Zle_Qle; auto).
    rewrite Qmult_1_r in Y. apply Qabs_Qle_condition in Y. unfold Qdiv in Y. change (/ inject_Z (2 ^ 49))%Q with (1 # 562949953421312)%Q in Y.
    pose proof (Qfloor_le y) as F1. pose proof (Qlt_floor y) as F2. rewrite inject_Z_plus in F2. change (inject_Z 1) with 1%Q in F2.
    assert (L1 : (inject_Z (Qfloor y) < inject_Z (v + 1))%Q) by (rewrite inject_Z_plus; change (inject_Z 1) with 1%Q; lra).
    assert (L2 : (inject_Z v < inject_Z (Qfloor y + 2))%Q) by (rewrite inject_Z_plus; change (inject_Z 2) with 2%Q; lra).
    rewrite <- Zlt_Qlt in L1, L2. lia. }
  apply K; auto.
Qed.
Print Assumptions C199_one.
Example C199_case : rescale_velocities 0 [20; 26; 23; 20; 40; 60; 30] 64 127 = Ok [64; 73; 68; 64; 95; 127; 79] /\
  scale_relative_velocities 0 [1; 48] 1 = [0; 48].
Proof. split; vm_compute; reflexivity. Qed.
