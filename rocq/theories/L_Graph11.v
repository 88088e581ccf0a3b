(** The map from sets of notes to hashes (midi_graph_builder.py:1028). *)
From Coq Require Import Permutation.
From Verif Require Import PyBase L_Base M_Chord M_Graph S_Graph L_Graph2.
Open Scope Z_scope.

Lemma same_set_iff : forall a b, same_set a b = true <-> forall x, In x a <-> In x b.
Proof.
  assert (X : forall (a b : list Z), forallb (fun x => existsb (Z.eqb x) b) a = true <-> incl a b).
  { intros a b. rewrite forallb_forall. split; intros H x I.
    - apply H in I. apply existsb_exists in I as [y [I E]]. apply Z.eqb_eq in E. subst. auto.
    - apply existsb_exists. exists x. split; [auto|apply Z.eqb_refl]. }
  intros a b. unfold same_set. rewrite andb_true_iff, !X. unfold incl. firstorder.
Qed.
Lemma same_set_refl : forall a, same_set a a = true.
Proof. intros. apply same_set_iff. tauto. Qed.
Lemma same_set_cut : forall a b k, same_set a b = true -> same_set k a = same_set k b.
Proof.
  intros a b k H. apply Bool.eq_iff_eq_true. rewrite !same_set_iff in *. firstorder.
Qed.
Lemma get_set_set : forall (V : Type) k k' (v : V) l, dict_get same_set k' (dict_set same_set k v l) = if same_set k k' then Some v else dict_get same_set k' l.
Proof.
  intros V k k' v. induction l as [|[a w] l IH]; cbn [dict_set dict_get]; [reflexivity|].
  destruct (same_set a k) eqn:E; cbn [dict_get].
  - assert (R : same_set a k' = same_set k k').
    { apply Bool.eq_iff_eq_true. rewrite !same_set_iff in *. firstorder. }
    rewrite R. destruct (same_set k k'); reflexivity.
  - rewrite IH. destruct (same_set a k') eqn:F; [|reflexivity].
    destruct (same_set k k') eqn:G; [|reflexivity]. exfalso.
    assert (T : same_set a k = true); [|congruence]. rewrite !same_set_iff in *. firstorder.
Qed.
Lemma reg_all_n2h : forall e l b ch, (forall x, In x l -> NoDup x) -> (forall a c, Permutation a c -> e_shash e a = e_shash e c) -> NoDup ch ->
  In ch l -> dict_get same_set ch (b_n2h (reg_all e b l)) = Some (e_shash e ch).
Proof.
  induction l as [|x l IH] using rev_ind; intros b ch N P D I; [destruct I|].
  unfold reg_all. rewrite fold_left_app. cbn [fold_left]. fold (reg_all e b l).
  assert (X : b_n2h (register (reg_all e b l) (e_shash e x) x) = dict_set same_set x (e_shash e x) (b_n2h (reg_all e b l))) by (unfold register; cbv zeta; destruct (dict_get _ _ (b_h2i _)); reflexivity).
  rewrite X, get_set_set. destruct (same_set x ch) eqn:E.
  - f_equal. apply P. apply NoDup_Permutation; auto; [apply N, in_or_app; right; left; auto|]. apply same_set_iff. exact E.
  - apply in_app_or in I as [I|[->|[]]]; [|rewrite same_set_refl in E; discriminate]. apply IH; auto. intros y Y. apply N, in_or_app; auto.
Qed.
Lemma NoDup_concat_in : forall (A : Type) (l : list (list A)) x, NoDup (List.concat l) -> In x l -> NoDup x.
Proof.
  induction l as [|a l IH]; intros x N I; [destruct I|]. cbn in N. destruct I as [->|I].
  - clear - N. induction x as [|y x IH]; [constructor|]. cbn in N. inversion N; subst. constructor; [intros Q; apply H1, in_or_app; auto|auto].
  - apply IH; [|auto]. clear - N. induction a as [|y a IHa]; cbn in N; [auto|]. inversion N; auto.
Qed.
Lemma chords_NoDup : forall e s c ws ch, chords_of e s c ws -> In ch ws -> NoDup ch.
Proof.
  intros e s c ws ch [key [gs [css [_ [_ [F ->]]]]]] I. apply in_concat in I as [cs [A B]].
  induction F as [|g cs' gs css S F IH]; [destruct A|]. destruct A as [->|A]; [|auto].
  destruct S as [N _]. eapply NoDup_concat_in; eauto.
Qed.
