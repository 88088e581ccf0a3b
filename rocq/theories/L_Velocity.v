(** Lemmas for relative velocity scaling in double precision. *)
From Coq Require Import Lia Lqa Qround.
From Verif Require Import PyBase L_Base M_Float L_Float M_SeqMore L_Note.
Open Scope Z_scope.

Lemma fl_near x l h : (0 <= l)%Q -> (l <= x <= h)%Q -> (l * (1 - u) <= fl x <= h * (1 + u))%Q.
Proof.
  intros L [A B]. destruct (fl_err x ltac:(lra)) as [C D]. split.
  - eapply Qle_trans; [|exact C]. apply Qmul_le; [discriminate|auto].
  - eapply Qle_trans; [exact D|]. apply Qmul_le; [discriminate|auto].
Qed.
Lemma u_small : (0 <= 1 - u)%Q. Proof. discriminate. Qed.
Lemma three_rounds v f a : (0 <= v)%Q -> (0 <= f)%Q -> (0 < a)%Q ->
  (v * f * (1 - u) * (1 - u) * (1 - u) <= fl (fl (fl (v / a) * f) * a) <= v * f * (1 + u) * (1 + u) * (1 + u))%Q.
Proof.
  intros V F A. assert (D : (0 <= v / a)%Q) by (apply Qle_shift_div_l; lra). pose proof u_small as U.
  destruct (fl_near (v / a) (v / a) (v / a) D ltac:(lra)) as [A1 A2].
  assert (L1 : (0 <= v / a * (1 - u))%Q) by (apply Qmult_le_0_compat; auto).
  destruct (fl_near (fl (v / a) * f) (v / a * (1 - u) * f) (v / a * (1 + u) * f)) as [B1 B2]; [apply Qmult_le_0_compat; auto|split; apply Qmul_le; auto|].
  destruct (fl_near (fl (fl (v / a) * f) * a) (v / a * (1 - u) * f * (1 - u) * a) (v / a * (1 + u) * f * (1 + u) * a)) as [C1 C2].
  - apply Qmult_le_0_compat; [|lra]. apply Qmult_le_0_compat; [|auto]. apply Qmult_le_0_compat; auto.
  - split; apply Qmul_le; auto; lra.
  - assert (E : forall c, (v / a * c * f * c * a * c == v * f * c * c * c)%Q) by (intros c; field; intros Z0; rewrite Z0 in A; lra). rewrite E in C1, C2. split; auto.
Qed.
Lemma cut_near v f x : (0 <= v)%Q -> (0 <= f)%Q -> (v * f * (1 - u) * (1 - u) * (1 - u) <= x <= v * f * (1 + u) * (1 + u) * (1 + u))%Q ->
  (Qminb 127 (v * f) - (1 # 2) <= Qminb 127 (Qmaxb 0 x) <= Qminb 127 (v * f) + (1 # 2))%Q.
Proof.
  intros V F [A B]. assert (E0 : (0 <= v * f)%Q) by (apply Qmult_le_0_compat; auto). set (e := (v * f)%Q) in *. clearbody e.
  assert (K1 : (e * (1 - (1 # 1024)) <= x)%Q).
  { eapply Qle_trans; [|exact A]. rewrite <- !Qmult_assoc. rewrite !(Qmult_comm e). apply Qmul_le; auto. discriminate. }
  assert (K2 : (x <= e * (1 + (1 # 1024)))%Q).
  { eapply Qle_trans; [exact B|]. rewrite <- !Qmult_assoc. rewrite !(Qmult_comm e). apply Qmul_le; auto. discriminate. }
  clear A B. destruct (Qmaxb_spec 0 x) as [[M ->]|[M ->]]; [|lra].
  destruct (Qminb_spec 127 x) as [[N ->]|[N ->]]; destruct (Qminb_spec 127 e) as [[N' ->]|[N' ->]]; lra.
Qed.
Lemma floor_near a b : (a - (1 # 2) <= b <= a + (1 # 2))%Q -> Qfloor a - 1 <= Qfloor b <= Qfloor a + 1.
Proof.
  intros [A B]. destruct (Qfloor_bounds a) as [A1 A2]. destruct (Qfloor_bounds b) as [B1 B2]. split.
  - assert (X : (inject_Z (Qfloor a) < inject_Z (Qfloor b + 2))%Q) by (rewrite inject_Z_plus; change (inject_Z 2) with 2%Q; lra). rewrite <- Zlt_Qlt in X. lia.
  - assert (X : (inject_Z (Qfloor b) < inject_Z (Qfloor a + 2))%Q) by (rewrite inject_Z_plus; change (inject_Z 2) with 2%Q; lra). rewrite <- Zlt_Qlt in X. lia.
Qed.
Lemma floor_near_Z z b : (inject_Z z - (1 # 2) <= b <= inject_Z z + (1 # 2))%Q -> Qfloor b = z \/ Qfloor b = z - 1.
Proof.
  intros [A B]. destruct (Qfloor_bounds b) as [B1 B2].
  assert (X : (inject_Z z < inject_Z (Qfloor b + 2))%Q) by (rewrite inject_Z_plus; change (inject_Z 2) with 2%Q; lra). rewrite <- Zlt_Qlt in X.
  assert (Y : (inject_Z (Qfloor b) < inject_Z (z + 1))%Q) by (rewrite inject_Z_plus; change (inject_Z 1) with 1%Q; lra). rewrite <- Zlt_Qlt in Y. lia.
Qed.
Lemma sum_pos l : (forall v, In v l -> 0 <= v) -> 0 <= fold_right Z.add 0 l /\ ((exists v, In v l /\ v <> 0) -> 0 < fold_right Z.add 0 l).
Proof.
  induction l as [|a l IH]; intros H; cbn; [split; [lia|intros (v & [] & _)]|]. destruct IH as [I1 I2]; [intros; apply H; right; auto|]. pose proof (H a (or_introl eq_refl)). split; [lia|].
  intros (v & [<-|V] & N); [lia|]. assert (0 < fold_right Z.add 0 l) by (apply I2; eauto). lia.
Qed.
Lemma inject_nn z : 0 <= z -> (0 <= inject_Z z)%Q. Proof. intros. change 0%Q with (inject_Z 0). rewrite <- Zle_Qle. auto. Qed.
Lemma scale_fl l f : (0 <= f)%Q -> (forall v, In v l -> 0 <= v) -> (exists v, In v l /\ v <> 0) ->
  exists w, scale_relative fl l f = Some w /\ Forall2 (fun v y => exists x, y = Qfloor x /\ (Qminb 127 (inject_Z v * f) - (1 # 2) <= x <= Qminb 127 (inject_Z v * f) + (1 # 2))%Q) l w.
Proof.
  intros F N X. destruct (sum_pos l N) as [_ SP]. specialize (SP X). unfold scale_relative. destruct l as [|v0 l0] eqn:El; [destruct X as (v & [] & _)|]. rewrite <- El in *. cbv zeta.
  assert (LP : 0 < Z.of_nat (List.length l)) by (rewrite El; cbn; lia).
  assert (AP : (0 < fl (inject_Z (fold_right Z.add 0%Z l) / inject_Z (Z.of_nat (List.length l))))%Q).
  { apply fl_gt0. rewrite Zlt_Qlt in SP, LP. apply Qlt_shift_div_l; auto. }
  set (a := fl _) in *. clearbody a. destruct (Qeq_bool a 0) eqn:E; [apply Qeq_bool_iff in E; lra|]. eexists. split; [reflexivity|].
  clear - F N AP. induction l as [|v l IH]; cbn [map]; constructor; [|apply IH; intros; apply N; right; auto].
  eexists. split; [reflexivity|]. apply cut_near; auto; [apply inject_nn, N; left; auto|]. apply three_rounds; auto. apply inject_nn, N; left; auto.
Qed.
