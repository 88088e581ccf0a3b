(** Lemmas about mixing waveforms. *)
From Coq Require Import Qabs Lia Lqa Permutation.
From Verif Require Import PyBase L_Base M_Note L_Note M_Float L_Float L_Snap L_NoteF P_Rounding M_Synth S_Synth.
Open Scope list_scope.
Open Scope Q_scope.

Lemma add_len : forall r acc w, List.length (add_into r acc w) = List.length acc.
Proof. intros r acc. induction acc as [|a acc IH]; intros [|x w]; cbn; auto. Qed.
Lemma add_nth : forall r acc w k, (List.length w <= List.length acc)%nat -> nth k (add_into r acc w) 0 = match nth_error w k with Some x => r (nth k acc 0 + x) | None => nth k acc 0 end.
Proof.
  intros r acc. induction acc as [|a acc IH]; intros w k L.
  - destruct w; [|cbn in L; lia]. cbn. destruct k; reflexivity.
  - destruct w as [|x w]; [destruct k; reflexivity|]. destruct k as [|k]; [reflexivity|]. cbn [add_into nth nth_error]. apply IH. cbn in L. lia.
Qed.
Lemma fold_len : forall r ws acc, List.length (fold_left (add_into r) ws acc) = List.length acc.
Proof. intros r ws. induction ws as [|w ws IH]; intro acc; cbn [fold_left]; auto. rewrite IH. apply add_len. Qed.
Lemma fold_nth : forall r ws acc k, (forall w, In w ws -> (List.length w <= List.length acc)%nat) -> nth k (fold_left (add_into r) ws acc) 0 = heard r (nth k acc 0) ws k.
Proof.
  intros r ws. induction ws as [|w ws IH]; intros acc k L; cbn [fold_left heard]; auto. rewrite IH by (intros w' I; rewrite add_len; apply L; right; auto).
  rewrite add_nth by (apply L; left; auto). reflexivity.
Qed.
Lemma max_spec : forall ws m, let n := fold_left (fun m w => Nat.max m (@List.length Q w)) ws m in (m <= n)%nat /\ (forall w, In w ws -> (List.length w <= n)%nat) /\ (n = m \/ exists w, In w ws /\ List.length w = n).
Proof.
  intros ws. induction ws as [|w ws IH]; intros m n; subst n; cbn [fold_left]; [split; [lia|split; [intros w []|auto]]|].
  specialize (IH (Nat.max m (List.length w))). cbv zeta in IH. destruct IH as (A & B & C). split; [lia|]. split.
  - intros w' [<-|I]; [lia|auto].
  - destruct C as [C|(w' & I & C)]; [|right; exists w'; split; auto; right; auto]. destruct (Nat.max_dec m (List.length w)) as [D|D]; [left; lia|]. right. exists w. split; [left; auto|lia].
Qed.
Lemma max_longest : forall w ws, longest (w :: ws) (fold_left (fun m w => Nat.max m (List.length w)) (w :: ws) 0%nat).
Proof.
  intros w ws. destruct (max_spec (w :: ws) 0%nat) as (_ & B & C). split; auto. destruct C as [C|C]; auto. exists w. split; [left; auto|]. pose proof (B w (or_introl eq_refl)). lia.
Qed.
Lemma loud_spec : forall l m, 0 <= m -> let p := fold_left (fun m x => if Qltb m (Qabsb x) then Qabsb x else m) l m in m <= p /\ (forall x, In x l -> Qabs x <= p) /\ (p = m \/ exists x, In x l /\ Qabs x == p).
Proof.
  intros l. induction l as [|x l IH]; intros m M p; subst p; cbn [fold_left]; [split; [lra|split; [intros x []|auto]]|].
  assert (AB : Qabsb x == Qabs x) by (destruct (Qabsb_abs x) as (A1 & A2 & A3); destruct (Qlt_le_dec x 0); [rewrite (Qabs_neg x) by lra|rewrite (Qabs_pos x) by lra]; lra).
  pose proof (Qabs_nonneg x) as NN.
  destruct (Qltb m (Qabsb x)) eqn:E.
  - apply Qltb_lt in E. destruct (IH (Qabsb x) ltac:(lra)) as (A & B & C). split; [lra|]. split; [intros y [<-|I]; [lra|auto]|]. right. destruct C as [C|(y & I & C)]; [|exists y; split; auto; right; auto]. exists x. split; [left; auto|]. rewrite C. lra.
  - apply Qltb_ge in E. destruct (IH m M) as (A & B & C). split; [lra|]. split; [intros y [<-|I]; [lra|auto]|]. destruct C as [C|(y & I & C)]; auto. right. exists y. split; auto. right; auto.
Qed.
Lemma loudest_peak : forall l, peak (fun k => nth k l 0) (List.length l) (loudest l).
Proof.
  intro l. destruct (loud_spec l 0 ltac:(lra)) as (A & B & C). fold (loudest l) in A, B, C. split; auto. split; [intros k K; apply B; apply nth_In; auto|]. intro N.
  destruct C as [C|(x & I & C)].
  - exists 0%nat. split; [lia|]. rewrite C. assert (I : In (nth 0 l 0) l) by (apply nth_In; lia). apply B in I. rewrite C in I. pose proof (Qabs_nonneg (nth 0 l 0)). lra.
  - apply (In_nth _ _ 0) in I as (k & K & E). exists k. subst. auto.
Qed.
Lemma norm_nth : forall r l k, (k < List.length l)%nat -> nth_error (normalize r l) k = Some (if Qeq_bool (loudest l) 0 then None else Some (r (nth k l 0 / loudest l))).
Proof. intros r l k K. unfold normalize. erewrite map_nth_error; [reflexivity|]. apply nth_error_nth'; auto. Qed.
Lemma norm_len : forall r l, List.length (normalize r l) = List.length l.
Proof. intros. unfold normalize. apply map_length. Qed.

(** ** Rounding *)
Lemma fl_fl : forall x, fl (fl x) = fl x.
Proof.
  intro x. destruct (Qlt_le_dec x 0) as [N|N]; [|apply fl_idem; auto].
  assert (E : fl x == - fl (- x)) by (rewrite fl_opp; ring).
  assert (F : fl (fl x) == fl x). { rewrite (fl_m _ _ E), fl_opp, (fl_idem (- x)) by lra. rewrite <- E. reflexivity. }
  rewrite <- (fl_red (fl x)) at 1. rewrite <- (fl_red x) at 2. apply Qred_complete in F. rewrite fl_red in *. rewrite !fl_red in F. rewrite <- (fl_red (fl x)). rewrite !fl_red. exact F.
Qed.
