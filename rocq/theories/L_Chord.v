From Coq Require Import Sorted Permutation Relations QArith Qabs Qround Lia Lqa.
From Verif Require Import PyBase L_Base L_Sort M_Note L_Note L_Note2 M_Events M_Seq S_Seq L_Seq M_Chord M_Graph S_Graph.
Open Scope Z_scope.

Lemma round_nearest : forall x, nearest_even x (round_half_even x).
Proof.
  intro x. destruct (Qfloor_bounds x) as [F1 F2]. unfold nearest_even, round_half_even. set (f := Qfloor x) in *.
  destruct (Qltb (x - inject_Z f) (1 # 2)) eqn:A; [apply Qltb_lt in A|apply Qltb_ge in A].
  { split.
    - apply Qabs_case; intros; lra.
    - apply Qabs_case; intros; exfalso; change (inject_Z 1) with 1%Q in *; lra. }
  destruct (Qltb (1 # 2) (x - inject_Z f)) eqn:B; [apply Qltb_lt in B|apply Qltb_ge in B].
  { rewrite inject_Z_plus. change (inject_Z 1) with 1%Q in *. split.
    - apply Qabs_case; intros; lra.
    - apply Qabs_case; intros; exfalso; lra. }
  destruct (Z.even f) eqn:E.
  - split; [apply Qabs_case; intros; lra|]. intros _. apply Z.even_spec. exact E.
  - rewrite inject_Z_plus. change (inject_Z 1) with 1%Q in *. split; [apply Qabs_case; intros; lra|]. intros _.
    apply Z.even_spec. rewrite Z.even_add, E. reflexivity.
Qed.

Lemma adjusted_snapped : forall tol s, snapped tol s (adjusted tol true 2 s).
Proof.
  intros tol s. unfold adjusted, snapped. destruct (Qeq_bool tol 0) eqn:E.
  - apply Qeq_bool_iff in E. left. split; auto.
  - apply Qeq_bool_neq in E. right. split; auto. unfold round_digits. cbv zeta.
    change (inject_Z (10 ^ Z.of_nat 2)) with (100 # 1)%Q.
    exists (round_half_even (s / tol)), (round_half_even (inject_Z (round_half_even (s / tol)) * tol * 100)).
    split; [apply round_nearest|]. split; [apply round_nearest|]. reflexivity.
Qed.
(** A snapped time is close to the original. *)
Lemma snapped_close : forall tol s a, (0 <= tol)%Q -> snapped tol s a -> (Qabs (a - s) <= tol * (1 # 2) + (1 # 200))%Q.
Proof.
  intros tol s a T [[E ->]|[N [m [k [[H1 _] [[H2 _] E]]]]]].
  - apply Qabs_case; intros; lra.
  - assert (P : (0 < tol)%Q) by (destruct (Qlt_le_dec 0 tol); auto; exfalso; apply N; lra).
    assert (D : (Qabs (s - inject_Z m * tol) <= tol * (1 # 2))%Q).
    { setoid_replace (s - inject_Z m * tol)%Q with (tol * (s / tol - inject_Z m))%Q by (field; lra).
      rewrite Qabs_Qmult. rewrite (Qabs_pos tol) by lra. apply Qmult_le_l; auto. }
    rewrite E. revert D H2. apply Qabs_case; intros X D; revert D; apply Qabs_case; intros Y D Z; revert Z; apply Qabs_case; intros W Z;
      set (u := (inject_Z m * tol)%Q) in *; set (v := inject_Z k) in *;
      assert (V : (v / 100 == v * (1 # 100))%Q) by field; rewrite V; lra.
Qed.
Lemma round_digits_nonneg : forall x d, (0 <= x)%Q -> (0 <= round_digits x d)%Q.
Proof.
  intros x d H. unfold round_digits. cbv zeta. set (k := 10 ^ Z.of_nat d).
  assert (K : 0 < k) by (unfold k; apply Z.pow_pos_nonneg; lia).
  assert (KQ : (0 < inject_Z k)%Q) by (change 0%Q with (inject_Z 0); rewrite <- Zlt_Qlt; exact K).
  apply Qle_shift_div_l; auto. rewrite Qmult_0_l. change 0%Q with (inject_Z 0). rewrite <- Zle_Qle.
  set (y := (x * inject_Z k)%Q). assert (Y : (0 <= y)%Q) by (unfold y; apply Qmult_le_0_compat; lra).
  unfold round_half_even. assert (F : 0 <= Qfloor y) by (change 0 with (Qfloor (inject_Z 0)); apply Qfloor_resp_le; exact Y).
  repeat (destruct (Qltb _ _) || destruct (Z.even _)); lia.
Qed.
Lemma round_nonneg : forall y, (0 <= y)%Q -> 0 <= round_half_even y.
Proof.
  intros y Y. unfold round_half_even. assert (F : 0 <= Qfloor y) by (change 0 with (Qfloor (inject_Z 0)); apply Qfloor_resp_le; exact Y).
  repeat (destruct (Qltb _ _) || destruct (Z.even _)); lia.
Qed.
Lemma adjusted_nonneg : forall tol auto p s, (0 <= tol)%Q -> (0 <= s)%Q -> (0 <= adjusted tol auto p s)%Q.
Proof.
  intros tol auto p s T H. unfold adjusted. destruct (Qeq_bool tol 0) eqn:E; auto.
  apply Qeq_bool_neq in E. assert (P : (0 < tol)%Q) by (destruct (Qlt_le_dec 0 tol); auto; exfalso; apply E; lra).
  assert (D : (0 <= s / tol)%Q) by (apply Qle_shift_div_l; auto; lra).
  destruct auto.
  - apply round_digits_nonneg. apply Qmult_le_0_compat; [|lra]. change 0%Q with (inject_Z 0). rewrite <- Zle_Qle. apply round_nonneg. auto.
  - apply Qmult_le_0_compat; [|lra]. apply round_digits_nonneg. auto.
Qed.

(** Dictionaries. *)
Section Dict.
Context {K V : Type} (eqb : K -> K -> bool) (R : forall a b, reflect (a = b) (eqb a b)).
Lemma dict_get_set : forall l k v k', dict_get eqb k' (dict_set eqb k v l) = if eqb k k' then Some v else dict_get (V := V) eqb k' l.
Proof.
  induction l as [|[a x] l IH]; intros k v k'; cbn [dict_set dict_get].
  - destruct (R k k'); reflexivity.
  - destruct (R a k) as [->|N]; cbn [dict_get].
    + destruct (R k k'); reflexivity.
    + rewrite IH. destruct (R a k') as [->|N'].
      * destruct (R k k'); [congruence|reflexivity].
      * reflexivity.
Qed.
Lemma dict_get_In : forall (l : list (K * V)) k v, dict_get eqb k l = Some v -> In (k, v) l.
Proof.
  induction l as [|[a x] l IH]; intros k v; cbn [dict_get]; [discriminate|].
  destruct (R a k) as [->|N]; [intros [= ->]; left; reflexivity|intros H; right; auto].
Qed.
Lemma dict_get_None : forall (l : list (K * V)) k, dict_get eqb k l = None <-> ~ In k (map fst l).
Proof.
  induction l as [|[a x] l IH]; intros k; cbn [dict_get map fst]; [split; auto|].
  destruct (R a k) as [->|N].
  - split; [discriminate|intros H; exfalso; apply H; left; reflexivity].
  - rewrite IH. split; [intros H [H1|H1]; auto|intros H H1; apply H; right; auto].
Qed.
Lemma dict_In_get : forall (l : list (K * V)) k v, NoDup (map fst l) -> In (k, v) l -> dict_get eqb k l = Some v.
Proof.
  induction l as [|[a x] l IH]; intros k v N H; [destruct H|]. cbn [map fst] in N. inversion N as [|? ? N1 N2]; subst. cbn [dict_get].
  destruct H as [[= -> ->]|H].
  - destruct (R k k); congruence.
  - destruct (R a k) as [->|]; [|apply IH; auto]. exfalso. apply N1. apply (in_map fst) in H. exact H.
Qed.
Lemma dict_set_keys : forall (l : list (K * V)) k v, map fst (dict_set eqb k v l) =
  match dict_get eqb k l with Some _ => map fst l | None => map fst l ++ [k] end.
Proof.
  induction l as [|[a x] l IH]; intros k v; cbn [dict_set dict_get map fst app]; auto.
  destruct (R a k) as [->|N]; cbn [map fst]; auto. rewrite IH. destruct (dict_get eqb k l); reflexivity.
Qed.
Lemma dict_set_NoDup : forall (l : list (K * V)) k v, NoDup (map fst l) -> NoDup (map fst (dict_set eqb k v l)).
Proof.
  intros l k v N. rewrite dict_set_keys. destruct (dict_get eqb k l) eqn:E; auto. apply dict_get_None in E.
  apply (Permutation_NoDup (l := k :: map fst l)); [|constructor; auto]. apply Permutation_cons_append.
Qed.
Lemma dict_set_new : forall (l : list (K * V)) k v, dict_get eqb k l = None -> dict_set eqb k v l = l ++ [(k, v)].
Proof.
  induction l as [|[a x] l IH]; intros k v; cbn [dict_set dict_get app]; auto. destruct (R a k); [discriminate|]. intros H. rewrite IH; auto.
Qed.
Lemma dict_set_In : forall (l : list (K * V)) k v k' v', NoDup (map fst l) -> In (k', v') (dict_set eqb k v l) -> (k' = k /\ v' = v) \/ (k' <> k /\ In (k', v') l).
Proof.
  intros l k v k' v' N H. apply (dict_In_get _ _ _ (dict_set_NoDup _ _ _ N)) in H. rewrite dict_get_set in H.
  destruct (R k k') as [->|Ne]; [left; split; congruence|right]. split; [congruence|]. apply dict_get_In. exact H.
Qed.
End Dict.
