(** Generic lemmas for saving and loading a piece. *)
From Coq Require Import Sorted Permutation Lia.
From Verif Require Import PyBase L_Base M_SortedDict M_Ticks M_Load L_Load2 M_Write M_Meta S_Meta L_Meta M_Song.
Open Scope Z_scope.

Lemma mapM_inv : forall A B (f : A -> res B) l m, mapM f l = Ok m -> Forall2 (fun a b => f a = Ok b) l m.
Proof.
  induction l as [|a l IH]; intros m H; cbn in H; [injection H as <-; constructor|].
  destruct (f a) as [b|] eqn:E; [|discriminate]. destruct (mapM f l) as [bs|] eqn:F; [|discriminate].
  injection H as <-. constructor; auto.
Qed.
Lemma mapM_ok : forall A B (f : A -> res B) l m, Forall2 (fun a b => f a = Ok b) l m -> mapM f l = Ok m.
Proof. induction 1 as [|a b l m H F IH]; cbn; [reflexivity|]. rewrite H, IH. reflexivity. Qed.
Lemma mapM_exists : forall A B (f : A -> res B) l, (forall a, In a l -> exists b, f a = Ok b) -> exists m, mapM f l = Ok m.
Proof.
  induction l as [|a l IH]; intros H; cbn; [eauto|]. destruct (H a (or_introl eq_refl)) as [b ->].
  destruct IH as [m ->]; [intros; apply H; right; auto|eauto].
Qed.
Lemma Forall2_map_l : forall A B C (R : B -> C -> Prop) (f : A -> B) l m, Forall2 R (map f l) m <-> Forall2 (fun a c => R (f a) c) l m.
Proof.
  intros. split; [|induction 1; cbn; constructor; auto]. revert m.
  induction l; intros m H; inversion H; subst; constructor; auto.
Qed.
Lemma Forall2_map_r : forall A B C (R : A -> C -> Prop) (f : B -> C) l m, Forall2 R l (map f m) <-> Forall2 (fun a b => R a (f b)) l m.
Proof.
  intros. split; [|induction 1; cbn; constructor; auto]. revert l.
  induction m; intros l H; inversion H; subst; constructor; auto.
Qed.
Lemma Forall2_imp : forall A B (R S : A -> B -> Prop) l m, (forall a b, In a l -> In b m -> R a b -> S a b) -> Forall2 R l m -> Forall2 S l m.
Proof.
  intros A B R S l m H F. induction F; constructor; [apply H; [left; auto|left; auto|auto]|].
  apply IHF. intros; apply H; [right; auto|right; auto|auto].
Qed.
Lemma Forall2_perm : forall A B (R : A -> B -> Prop) m m', Permutation m m' -> forall l, Forall2 R l m -> exists l', Permutation l' l /\ Forall2 R l' m'.
Proof.
  induction 1 as [|x m m' P IH|x y m|m1 m2 m3 P1 IH1 P2 IH2]; intros l F.
  - inversion F; subst. exists []. split; constructor.
  - inversion F as [|a ? la ? Ra Fa]; subst. destruct (IH _ Fa) as [l' [Q G]]. exists (a :: l'). split; constructor; auto.
  - inversion F as [|a ? la ? Ra Fa]; subst. inversion Fa as [|b ? lb ? Rb Fb]; subst. exists (b :: a :: lb). split; [apply perm_swap|repeat constructor; auto].
  - destruct (IH1 _ F) as [l1 [Q1 G1]]. destruct (IH2 _ G1) as [l2 [Q2 G2]]. exists l2. split; auto. eapply Permutation_trans; eauto.
Qed.
Lemma Forall2_compose : forall A B C (R : A -> B -> Prop) (S : B -> C -> Prop) l m n, Forall2 R l m -> Forall2 S m n -> Forall2 (fun a c => exists b, R a b /\ S b c) l n.
Proof. intros A B C R S l m n F. revert n. induction F; intros n G; inversion G; subst; constructor; eauto. Qed.

(** ** Sorting by a key *)
Section KEY.
Variables (A : Type) (key : A -> Z).
Let lt := fun a b => key a <? key b.
Lemma insert_hd : forall x l, (forall y, In y l -> key x <= key y) -> insert_stable lt x l = x :: l.
Proof.
  intros x l H. destruct l as [|y l]; cbn; auto. unfold lt at 1. destruct (Z.ltb_spec (key y) (key x)); auto. specialize (H y (or_introl eq_refl)). lia.
Qed.
Lemma key_sorted : forall l, StronglySorted (fun a b => key a <= key b) (py_sort lt l).
Proof.
  intros l. induction l as [|x l IH]; cbn; [constructor|]. fold (py_sort lt l).
  revert IH. generalize (py_sort lt l). clear. induction l as [|y l IH]; intros S; cbn; [constructor; constructor|].
  apply StronglySorted_inv in S as [S F]. unfold lt at 1. destruct (Z.ltb_spec (key y) (key x)).
  - constructor; auto. rewrite Forall_forall in *. intros z Z0. apply (Permutation_in _ (Permutation_sym (insert_stable_perm lt x l))) in Z0.
    destruct Z0 as [<-|Z0]; [lia|auto].
  - constructor; [constructor; auto|]. constructor; auto. rewrite Forall_forall in *. intros z Z0. specialize (F z Z0). lia.
Qed.
Lemma sort_id : forall l, StronglySorted (fun a b => key a <= key b) l -> py_sort lt l = l.
Proof.
  induction l as [|x l IH]; intros S; cbn; auto. fold (py_sort lt l). apply StronglySorted_inv in S as [S F]. rewrite IH; auto.
  apply insert_hd. rewrite Forall_forall in F. auto.
Qed.
(** Selecting commutes with sorting. *)
Lemma insert_select : forall B (keyB : B -> Z) (f : A -> list B), (forall a b a' b', f a = [b] -> f a' = [b'] -> (key a < key a' <-> keyB b < keyB b')) ->
  (forall a, (List.length (f a) <= 1)%nat) -> forall l x, StronglySorted (fun a b => key a <= key b) l ->
  flat_map f (insert_stable lt x l) = match f x with [] => flat_map f l | b :: _ => insert_stable (fun a b => keyB a <? keyB b) b (flat_map f l) end.
Proof.
  intros B keyB f HK HL. induction l as [|y l IH]; intros x S; cbn [insert_stable flat_map].
  - pose proof (HL x). destruct (f x) as [|b [|? ?]]; cbn in *; auto; lia.
  - apply StronglySorted_inv in S as [S F]. unfold lt at 1. destruct (Z.ltb_spec (key y) (key x)) as [L|L].
    + cbn [flat_map]. rewrite IH; auto. pose proof (HL x). pose proof (HL y). destruct (f x) as [|b [|? ?]] eqn:Fx; cbn in *; try lia; auto.
      destruct (f y) as [|c [|? ?]] eqn:Fy; cbn in *; try lia; auto. destruct (Z.ltb_spec (keyB c) (keyB b)); auto.
      exfalso. apply (HK y c x b Fy Fx) in L. lia.
    + assert (K : forall z, In z (y :: l) -> key x <= key z).
      { intros z [<-|Z0]; [lia|]. rewrite Forall_forall in F. specialize (F z Z0). lia. }
      pose proof (HL x). change (flat_map f (x :: y :: l)) with (f x ++ flat_map f (y :: l)).
      change (f y ++ flat_map f l) with (flat_map f (y :: l)). destruct (f x) as [|b [|? ?]] eqn:Fx; cbn [List.length] in *; try lia; auto.
      cbn [app]. symmetry. assert (G : forall c, In c (flat_map f (y :: l)) -> keyB b <= keyB c).
      { intros c C. apply in_flat_map in C as [z [Z0 C]]. pose proof (HL z). destruct (f z) as [|c' [|? ?]] eqn:Fz; cbn in *; try lia; try tauto.
        destruct C as [->|[]]. specialize (K z Z0). destruct (Z.lt_ge_cases (keyB c) (keyB b)) as [X|X]; [|lia].
        apply (HK z c x b Fz Fx) in X. lia. }
      destruct (flat_map f (y :: l)) as [|c m]; cbn; auto. destruct (Z.ltb_spec (keyB c) (keyB b)) as [X|X]; auto.
      specialize (G c (or_introl eq_refl)). lia.
Qed.
Lemma sort_select : forall B (keyB : B -> Z) (f : A -> list B), (forall a b a' b', f a = [b] -> f a' = [b'] -> (key a < key a' <-> keyB b < keyB b')) ->
  (forall a, (List.length (f a) <= 1)%nat) -> forall l, flat_map f (py_sort lt l) = py_sort (fun a b => keyB a <? keyB b) (flat_map f l).
Proof.
  intros B keyB f HK HL. induction l as [|x l IH]; cbn; auto. fold (py_sort lt l). rewrite (insert_select B keyB f HK HL); [|apply key_sorted].
  rewrite IH. pose proof (HL x). destruct (f x) as [|b [|? ?]]; cbn in *; auto; lia.
Qed.
End KEY.
Lemma py_sort_ext : forall A (lt lt' : A -> A -> bool) l, (forall a b, In a l -> In b l -> lt a b = lt' a b) -> py_sort lt l = py_sort lt' l.
Proof.
  intros A lt lt'. induction l as [|x l IH]; intros H; cbn; auto. fold (py_sort lt l). fold (py_sort lt' l).
  rewrite IH by (intros; apply H; right; auto).
  assert (G : forall y, In y (py_sort lt' l) -> In y l) by (intros y Y; apply (Permutation_in _ (Permutation_sym (py_sort_perm lt' l)) Y)).
  revert G. generalize (py_sort lt' l). induction l0 as [|y l0 IH0]; intros G; cbn; auto.
  rewrite (H y x); [|right; apply G; left; auto|left; auto]. destruct (lt' y x); auto. f_equal. apply IH0. intros z Z0. apply G. right; auto.
Qed.

(** ** Views *)
Lemma view_app : forall A B (f : A -> B) a b, view f (a ++ b) = view f a ++ view f b.
Proof. intros. unfold view. apply map_app. Qed.
Lemma view_view : forall A B C (f : A -> B) (g : B -> C) l, view g (view f l) = view (fun x => g (f x)) l.
Proof. intros. unfold view. rewrite map_map. reflexivity. Qed.
Lemma f_abs_delta : forall l t, f_abs t (f_delta t l) = l.
Proof.
  induction l as [|[k m] l IH]; intros t; cbn; auto. replace (k - t + t) with k by lia. f_equal.
  replace (t + (k - t)) with k by lia. apply IH.
Qed.
Lemma f_delta_abs : forall l t, f_delta t (f_abs t l) = l.
Proof.
  induction l as [|[k m] l IH]; intros t; cbn; auto. replace (k + t - t) with k by lia. f_equal.
  replace (t + k) with (k + t) by lia. apply IH.
Qed.
Lemma view_delta_msg : forall l t, view as_msg (f_delta t l) = to_delta t (view as_msg l).
Proof. induction l as [|[k m] l IH]; intros t; cbn; auto. f_equal. apply IH. Qed.
Lemma absolute_view : forall l t, absolute t (view as_meta l) = view as_meta (f_abs t l).
Proof. induction l as [|[k m] l IH]; intros t; cbn; auto. f_equal. apply IH. Qed.
Lemma events_delta : forall l, events_of (view as_meta (f_delta 0 l)) = view as_meta l.
Proof. intros. rewrite <- absolute_events, absolute_view, f_abs_delta. reflexivity. Qed.
Lemma view_id : forall A (l : list (Z * A)) (f : A -> A), (forall x, f x = x) -> view f l = l.
Proof. intros A l f H. unfold view. rewrite <- (map_id l) at 2. apply map_ext. intros [k m]. cbn. rewrite H. reflexivity. Qed.
