(** Lemmas for shifting and stretching in double precision. *)
From Coq Require Import QArith Qabs Qpower Lqa Lia ZArith List.
From Verif Require Import PyBase M_Note M_Events M_Seq M_Float M_ShiftF S_Note S_Seq S_Rounding S_ShiftF L_Base L_Note L_Note2 L_Seq L_Float L_Snap L_NoteF P_Rounding P_NoteF.
Import ListNotations.
Open Scope Z_scope.
Open Scope list_scope.

Lemma fl_rounded : forall x, rounded x (fl x).
Proof.
  intros x. unfold rounded. assert (Y : (Qabs x / inject_Z (2 ^ 53) == Qabs x * u)%Q) by (unfold Qdiv; assert (Z1 : (/ inject_Z (2 ^ 53) == u)%Q) by reflexivity; rewrite Z1; reflexivity).
  rewrite Y. destruct (Qlt_le_dec x 0) as [A|A].
  - pose proof (fl_err (- x) ltac:(lra)) as E. rewrite fl_opp in E. rewrite (Qabs_neg x) by lra. apply Qabs_Qle_condition. lra.
  - pose proof (fl_err x A) as E. rewrite (Qabs_pos x) by lra. apply Qabs_Qle_condition. lra.
Qed.
Lemma rounded_gap : forall x y x' y', rounded x x' -> rounded y y' -> (Qabs x + Qabs y < inject_Z (2 ^ 53) * (y - x))%Q -> (x' < y')%Q.
Proof.
  intros x y x' y' A B H. unfold rounded in *.
  assert (Y : forall z, (Qabs z / inject_Z (2 ^ 53) == Qabs z * u)%Q) by (intros z; unfold Qdiv; assert (Z1 : (/ inject_Z (2 ^ 53) == u)%Q) by reflexivity; rewrite Z1; reflexivity).
  rewrite Y in A, B. apply Qabs_Qle_condition in A. apply Qabs_Qle_condition in B.
  assert (G : ((Qabs x + Qabs y) * u < y - x)%Q).
  { assert (U : (inject_Z (2 ^ 53) * u == 1)%Q) by reflexivity. assert (P0 : (0 < u)%Q) by reflexivity.
    apply Qlt_le_trans with (inject_Z (2 ^ 53) * (y - x) * u)%Q; [apply Qmult_lt_compat_r; auto|].
    apply Qle_lteq. right. setoid_replace (inject_Z (2 ^ 53) * (y - x) * u)%Q with ((inject_Z (2 ^ 53) * u) * (y - x))%Q by ring. rewrite U. ring. }
  lra.
Qed.
Lemma retimed_with : forall a s e, retimed a (with_end (with_start a s) e).
Proof. intros [] s e. unfold retimed. cbn. repeat split. Qed.
Lemma map_F2 : forall (A B : Type) (R : A -> B -> Prop) f l, (forall a, In a l -> R a (f a)) -> Forall2 R l (map f l).
Proof. intros A B R f l. induction l as [|a l IH]; intros H; [constructor|]. cbn [map]. constructor; [apply H; left; auto|apply IH; intros; apply H; right; auto]. Qed.
Lemma shift_latest : forall l t d, latest_end l t -> (exists n, In n l /\ (0 < n_end n)%Q) ->
  latest_end (map (fun n => n_shift_f n d) l) (Qmaxb 0 (fl (t + d))).
Proof.
  intros l t d [L1 [L2 L3]] [m [Im Pm]]. pose proof (L1 m Im).
  destruct L3 as [L3 | [n [In_ En]]]; [lra|].
  assert (B : forall x, In x (map (fun n => n_shift_f n d) l) -> (n_end x <= fl (t + d))%Q).
  { intros x Hx. apply in_map_iff in Hx as [y [<- Hy]]. unfold n_shift_f. cbn [with_end with_start n_end]. apply fl_mono. pose proof (L1 y Hy). lra. }
  assert (I' : In (n_shift_f n d) (map (fun n => n_shift_f n d) l)) by (apply (in_map (fun n => n_shift_f n d)); auto).
  assert (En' : n_end (n_shift_f n d) = fl (t + d)) by (unfold n_shift_f; cbn [with_end with_start n_end]; apply fl_m; rewrite En; reflexivity).
  destruct (Qmaxb_spec 0 (fl (t + d))) as [[H1 ->] | [H1 ->]]; unfold latest_end.
  - split; [exact B|]. split; [lra|]. right. exists (n_shift_f n d). split; [exact I'|]. rewrite En'. reflexivity.
  - split; [intros x Hx; pose proof (B x Hx); lra|]. split; [lra|]. left. reflexivity.
Qed.
Lemma Qmul_pos_le : forall a b k, (0 <= k)%Q -> (a <= b)%Q -> (a * k <= b * k)%Q.
Proof. intros. apply Qmult_le_compat_r; auto. Qed.
