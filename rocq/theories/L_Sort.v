(** Sorting and bisection facts relative to a predicate on which the order is a strict weak order. *)
From Coq Require Import Lia Sorted Permutation.
From Verif Require Import PyBase L_Base.

Section Rel.
Context {A : Type} (lt : A -> A -> bool) (P : A -> Prop).
Hypothesis asym : forall a b, P a -> P b -> lt a b = true -> lt b a = false.
Hypothesis ntrans : forall a b c, P a -> P b -> P c -> lt b a = false -> lt c b = false -> lt c a = false.
Definition sorted_by (l : list A) : Prop := StronglySorted (fun a b => lt b a = false) l.

Lemma sorted_split : forall l x, Forall P l -> P x -> sorted_by l ->
  exists l1 l2, l = l1 ++ l2 /\ Forall (fun y => lt y x = true) l1 /\ Forall (fun y => lt y x = false) l2.
Proof.
  induction l as [|y r IH]; intros x F Px S.
  - exists [], []. repeat split; constructor.
  - inversion F as [|? ? Py Fr]; subst. inversion S as [|? ? Sr Hy]; subst.
    destruct (lt y x) eqn:E.
    + destruct (IH x Fr Px Sr) as [l1 [l2 [-> [H1 H2]]]]. exists (y :: l1), l2. repeat split; auto.
    + exists [], (y :: r). repeat split; [constructor|]. constructor; auto.
      rewrite Forall_forall in *. intros z Hz. apply (ntrans x y z); auto.
Qed.
Lemma insort_split : forall l x, Forall P l -> P x -> sorted_by l ->
  exists l1 l2, l = l1 ++ l2 /\ insort_left lt l x = l1 ++ x :: l2 /\
    Forall (fun y => lt y x = true) l1 /\ Forall (fun y => lt y x = false) l2.
Proof.
  intros l x F Px S. destruct (sorted_split l x F Px S) as [l1 [l2 [-> [H1 H2]]]].
  exists l1, l2. split; auto. split; auto. unfold insort_left.
  rewrite (bisect_left_app lt l1 l2 x H1 H2). apply list_insert_app.
Qed.
Lemma SS_app_iff : forall (R : A -> A -> Prop) l1 l2, StronglySorted R (l1 ++ l2) <->
  StronglySorted R l1 /\ StronglySorted R l2 /\ (forall a b, In a l1 -> In b l2 -> R a b).
Proof.
  intros R l1 l2; induction l1 as [|x r IH]; simpl.
  - split; [intro H; repeat split; auto; [constructor|intros ? ? []]|tauto].
  - split.
    + intro H; inversion H as [|? ? H1 H2]; subst. apply IH in H1 as [S1 [S2 C]].
      rewrite Forall_app in H2. destruct H2 as [F1 F2]. rewrite Forall_forall in F2.
      split; [constructor; auto|]. split; auto. intros a b [<-|Ha] Hb; auto.
    + intros [S1 [S2 C]]. inversion S1; subst. constructor.
      * apply IH. split; auto.
      * apply Forall_app. split; auto. apply Forall_forall. intros b Hb. apply C; auto.
Qed.
Lemma insort_sorted : forall l x, Forall P l -> P x -> sorted_by l -> sorted_by (insort_left lt l x).
Proof.
  intros l x F Px S. destruct (insort_split l x F Px S) as [l1 [l2 [-> [-> [H1 H2]]]]].
  unfold sorted_by in *. apply SS_app_iff in S as [S1 [S2 C]]. rewrite Forall_app in F. destruct F as [F1 F2].
  rewrite Forall_forall in *. apply SS_app_iff. split; auto. split.
  - constructor; auto. apply Forall_forall; auto.
  - intros a b Ha [<-|Hb]; auto.
Qed.
Lemma insort_Forall : forall (Q : A -> Prop) l x, Forall Q l -> Q x -> Forall Q (insort_left lt l x).
Proof. intros. eapply Permutation_Forall; [apply insort_left_perm|]. constructor; auto. Qed.
Lemma insert_stable_sorted_rel : forall l x, Forall P l -> P x -> sorted_by l -> sorted_by (insert_stable lt x l).
Proof.
  induction l as [|y r IH]; intros x F Px S; simpl.
  - constructor; constructor.
  - inversion F as [|? ? Py Fr]; subst. inversion S as [|? ? Sr Hy]; subst.
    destruct (lt y x) eqn:E.
    + constructor; [apply IH; auto|].
      eapply Permutation_Forall; [apply insert_stable_perm|]. constructor; auto.
    + constructor; auto. constructor; auto.
      rewrite Forall_forall in *. intros z Hz. apply (ntrans x y z); auto.
Qed.
Lemma py_sort_sorted_rel : forall l, Forall P l -> sorted_by (py_sort lt l).
Proof.
  induction l as [|x l IH]; intro F; simpl; [constructor|]. inversion F; subst.
  apply insert_stable_sorted_rel; auto. eapply Permutation_Forall; [apply py_sort_perm|]. auto.
Qed.
Lemma insort_fold_sorted : forall l acc, Forall P l -> Forall P acc -> sorted_by acc ->
  sorted_by (fold_left (insort_left lt) l acc).
Proof.
  induction l as [|x l IH]; intros acc F Fa S; simpl; auto. inversion F; subst.
  apply IH; auto. - apply insort_Forall; auto. - apply insort_sorted; auto.
Qed.
End Rel.

Lemma insort_fold_perm : forall A (lt : A -> A -> bool) l acc,
  Permutation (l ++ acc) (fold_left (insort_left lt) l acc).
Proof.
  intros A lt; induction l as [|x l IH]; intro acc; simpl; auto.
  rewrite <- IH. rewrite <- (insort_left_perm lt acc x). rewrite Permutation_middle. reflexivity.
Qed.
