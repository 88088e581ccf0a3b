From Coq Require Import Sorted Permutation Relations QArith Qabs Qround Lia Lqa.
From Verif Require Import PyBase L_Base L_Sort M_Note L_Note L_Note2 M_Events M_Seq S_Seq L_Seq M_Chord M_Graph S_Graph L_Chord.
Open Scope Z_scope.

Definition soundb (n : note) : bool := negb (n_drum n || (n_velocity n =? 0)).
Lemma soundb_iff : forall n, soundb n = true <-> sounding n.
Proof.
  intro n. unfold soundb, sounding. destruct (n_drum n); cbn; [split; [discriminate|intros [H _]; discriminate]|].
  destruct (Z.eqb_spec (n_velocity n) 0); cbn; split; auto; [discriminate|intros [_ H]; contradiction].
Qed.
Definition members (key : note -> Z) (k : Z) (l : list note) : list note := filter (fun n => soundb n && (key n =? k)) l.
Lemma members_app : forall key k a b, members key k (a ++ b) = members key k a ++ members key k b.
Proof. intros. apply filter_app. Qed.
Definition inv_data (key : note -> Z) (pre : list note) (data : list (Z * list note)) (longest : Z) : Prop :=
  NoDup (map fst data) /\
  (forall k, dict_get Z.eqb k data = match members key k pre with [] => None | g => Some g end) /\
  (forall k, Z.of_nat (List.length (members key k pre)) <= longest) /\
  (longest = 0 \/ exists k, Z.of_nat (List.length (members key k pre)) = longest).
Definition zreflect := Z.eqb_spec.

Lemma inv_skip : forall key pre data longest n, soundb n = false -> inv_data key pre data longest -> inv_data key (pre ++ [n]) data longest.
Proof.
  intros key pre data longest n S [I1 [I2 [I3 I4]]].
  assert (E : forall k, members key k (pre ++ [n]) = members key k pre).
  { intro k. rewrite members_app. unfold members at 2. cbn [filter]. rewrite S. cbn. apply app_nil_r. }
  split; auto. split; [intro k; rewrite E; apply I2|]. split; [intro k; rewrite E; apply I3|].
  destruct I4 as [I4|[k I4]]; auto. right. exists k. rewrite E. auto.
Qed.
Lemma inv_put : forall key pre data longest n, soundb n = true -> inv_data key pre data longest ->
  let g := match dict_get Z.eqb (key n) data with Some g => g | None => [] end ++ [n] in
  inv_data key (pre ++ [n]) (dict_set Z.eqb (key n) g data) (Z.max longest (Z.of_nat (List.length g))).
Proof.
  intros key pre data longest n S [I1 [I2 [I3 I4]]] g.
  assert (E : forall k, members key k (pre ++ [n]) = members key k pre ++ (if key n =? k then [n] else [])).
  { intro k. rewrite members_app. f_equal. unfold members. cbn [filter]. rewrite S. cbn. destruct (key n =? k); reflexivity. }
  assert (G : g = members key (key n) (pre ++ [n])).
  { unfold g. rewrite E, Z.eqb_refl, I2. destruct (members key (key n) pre); reflexivity. }
  split; [apply dict_set_NoDup; [exact zreflect|exact I1]|]. split; [|split].
  - intro k. rewrite (dict_get_set Z.eqb zreflect). destruct (Z.eqb_spec (key n) k) as [<-|N].
    + rewrite <- G. unfold g. destruct (match dict_get Z.eqb (key n) data with Some g => g | None => [] end); reflexivity.
    + rewrite I2, E. destruct (Z.eqb_spec (key n) k); [contradiction|]. rewrite app_nil_r. reflexivity.
  - intro k. destruct (Z.eqb_spec (key n) k) as [<-|N].
    + rewrite <- G. lia.
    + rewrite E. destruct (Z.eqb_spec (key n) k); [contradiction|]. rewrite app_nil_r. specialize (I3 k). lia.
  - right. destruct (Z.max_spec longest (Z.of_nat (List.length g))) as [[M1 M2]|[M1 M2]].
    + exists (key n). rewrite <- G. lia.
    + destruct I4 as [I4|[k I4]].
      * exfalso. assert (L : (1 <= List.length g)%nat) by (unfold g; rewrite app_length; cbn; lia). lia.
      * destruct (Z.eqb_spec (key n) k) as [<-|N].
        -- exists (key n). rewrite <- G. assert (X : (List.length (members key (key n) pre) <= List.length g)%nat) by (rewrite G, E, Z.eqb_refl, app_length; cbn; lia). lia.
        -- exists k. rewrite E. destruct (Z.eqb_spec (key n) k); [contradiction|]. rewrite app_nil_r. lia.
Qed.
Lemma group_inv : forall e tol auto prec l pre data longest d' lg',
  let key := fun n => e_thash e (adjusted tol auto prec (n_start n)) in
  inv_data key pre data longest -> group_notes e tol auto prec data longest l = Ok (d', lg') -> inv_data key (pre ++ l) d' lg'.
Proof.
  intros e tol auto prec l. induction l as [|n l IH]; intros pre data longest d' lg' key I H.
  - cbn in H. injection H as <- <-. rewrite app_nil_r. exact I.
  - cbn [group_notes] in H. change (pre ++ n :: l) with (pre ++ [n] ++ l). rewrite app_assoc.
    destruct (n_drum n || (n_velocity n =? 0)) eqn:S.
    + apply (IH _ _ _ _ _ (inv_skip key pre data longest n ltac:(unfold soundb; rewrite S; reflexivity) I) H).
    + destruct (Qltb (n_start n) 0); [discriminate|]. cbv zeta in H. destruct (Qltb (adjusted _ _ _ _) 0); [discriminate|].
      apply (IH _ _ _ _ _ (inv_put key pre data longest n ltac:(unfold soundb; rewrite S; reflexivity) I) H).
Qed.
Lemma group_total : forall e tol auto prec l data longest, (0 <= tol)%Q ->
  ((forall n, In n l -> sounding n -> (0 <= n_start n)%Q) -> exists p, group_notes e tol auto prec data longest l = Ok p) /\
  ((exists n, In n l /\ sounding n /\ (n_start n < 0)%Q) -> group_notes e tol auto prec data longest l = Err AssertionError).
Proof.
  intros e tol auto prec l. induction l as [|n l IH]; intros data longest T.
  - split; [intros _; eexists; reflexivity|intros [n [[] _]]].
  - cbn [group_notes]. destruct (n_drum n || (n_velocity n =? 0)) eqn:S.
    + destruct (IH data longest T) as [A B]. split.
      * intros H. apply A. intros; apply H; simpl; auto.
      * intros [x [[->|X1] [X2 X3]]]; [|apply B; eauto]. exfalso. apply soundb_iff in X2. unfold soundb in X2. rewrite S in X2. discriminate.
    + assert (SN : sounding n) by (apply soundb_iff; unfold soundb; rewrite S; reflexivity).
      destruct (Qltb (n_start n) 0) eqn:L.
      * apply Qltb_lt in L. split; [|reflexivity]. intros H. exfalso. specialize (H n (or_introl eq_refl) SN). lra.
      * apply Qltb_ge in L. cbv zeta. replace (Qltb (adjusted tol auto prec (n_start n)) 0) with false
          by (symmetry; apply Qltb_ge; apply adjusted_nonneg; auto).
        match goal with |- context [group_notes _ _ _ _ ?d ?g _] => destruct (IH d g T) as [A B] end. split.
        -- intros H. apply A. intros; apply H; simpl; auto.
        -- intros [x [[->|X1] [X2 X3]]]; [lra|]. apply B. eauto.
Qed.
Lemma inv_empty_data : forall key, inv_data key [] [] 0.
Proof. intro key. split; [constructor|]. split; [reflexivity|]. split; [reflexivity|left; reflexivity]. Qed.

(** Sorting keeps the start times; differences are not negative. *)
Lemma diffs_nonneg : forall l, StronglySorted Qle l -> Forall (Qle 0) (diffs l).
Proof.
  induction l as [|a l IH]; intros S; [constructor|]. apply StronglySorted_inv in S as [S1 S2]. destruct l as [|b l]; [constructor|].
  cbn [diffs]. constructor; [inversion S2; subst; lra|]. apply IH. exact S1.
Qed.
Lemma SS_weaken : forall A (R R' : A -> A -> Prop) l, (forall a b, R a b -> R' a b) -> StronglySorted R l -> StronglySorted R' l.
Proof. intros A R R' l H S. induction S as [|a l S IH F]; constructor; auto. eapply Forall_impl; [|exact F]. auto. Qed.
Lemma Qltb_sorted : forall l, StronglySorted Qle (py_sort Qltb l).
Proof.
  intro l. eapply SS_weaken; [|apply py_sort_sorted].
  - intros a b H. cbn in H. apply Qltb_ge in H. exact H.
  - intros a b H. apply Qltb_lt in H. apply Qltb_ge. lra.
  - intros a b c H1 H2. apply Qltb_ge in H1, H2. apply Qltb_ge. lra.
Qed.
Lemma percentile_between : forall a p lo hi, a <> [] -> (0 <= p)%Q -> (p <= 100)%Q ->
  Forall (fun x => lo <= x /\ x <= hi)%Q a -> (lo <= percentile a p /\ percentile a p <= hi)%Q.
Proof.
  intros a p lo hi NE P1 P2 F. unfold percentile. cbv zeta. set (s := py_sort Qltb a). set (last := (List.length s - 1)%nat).
  set (v := (inject_Z (Z.of_nat last) * p / 100)%Q).
  assert (PS : Permutation a s) by apply py_sort_perm.
  assert (FS : Forall (fun x => lo <= x /\ x <= hi)%Q s) by (eapply Permutation_Forall; eauto).
  assert (LS : (0 < List.length s)%nat) by (rewrite <- (Permutation_length PS); destruct a; [congruence|cbn; lia]).
  assert (NTH : forall i, (lo <= nth (Nat.min i last) s 0 /\ nth (Nat.min i last) s 0 <= hi)%Q).
  { intro i. rewrite Forall_forall in FS. apply FS. apply nth_In. unfold last. lia. }
  destruct (NTH (Z.to_nat (Qfloor v))) as [A1 A2]. destruct (NTH (S (Z.to_nat (Qfloor v)))) as [B1 B2].
  set (x := nth _ s 0%Q) in *. set (y := nth (Nat.min (S _) last) s 0%Q) in *. clearbody x y.
  destruct (Qfloor_bounds v) as [F1 F2]. set (t := (v - inject_Z (Qfloor v))%Q).
  assert (T1 : (0 <= t)%Q) by (unfold t; lra). assert (T2 : (t <= 1)%Q) by (unfold t; lra). clearbody t.
  setoid_replace (x + (y - x) * t)%Q with (x * (1 - t) + y * t)%Q by ring.
  assert (X1 : (lo * (1 - t) <= x * (1 - t))%Q) by (apply Qmult_le_compat_r; lra).
  assert (Y1 : (lo * t <= y * t)%Q) by (apply Qmult_le_compat_r; lra).
  assert (X2 : (x * (1 - t) <= hi * (1 - t))%Q) by (apply Qmult_le_compat_r; lra).
  assert (Y2 : (y * t <= hi * t)%Q) by (apply Qmult_le_compat_r; lra).
  split; [setoid_replace lo with (lo * (1 - t) + lo * t)%Q by ring|setoid_replace hi with (hi * (1 - t) + hi * t)%Q by ring]; lra.
Qed.
Lemma tolerance_nonneg : forall s p, (0 <= p)%Q -> (p <= 100)%Q -> (0 <= compute_tolerance s p)%Q.
Proof.
  intros s p P1 P2. unfold compute_tolerance. cbv zeta. destruct (Nat.ltb_spec (List.length (time_differences s)) 2) as [L|L]; [lra|].
  assert (NE : time_differences s <> []) by (destruct (time_differences s); [cbn in L; lia|discriminate]).
  assert (F : Forall (Qle 0) (time_differences s)).
  { unfold time_differences in *. destruct (i_drum _); [congruence|]. apply diffs_nonneg. apply Qltb_sorted. }
  destruct (percentile_between (time_differences s) p 0 (fold_right Qmaxb 0%Q (time_differences s)) NE P1 P2) as [H _]; auto.
  clear - F. induction (time_differences s) as [|a l IH]; [constructor|]. inversion F; subst. cbn [fold_right]. constructor.
  - split; auto. destruct (Qmaxb_spec a (fold_right Qmaxb 0%Q l)) as [[? EE]|[? EE]]; rewrite EE; lra.
  - specialize (IH H2). apply Forall_impl with (2 := IH). intros x [X1 X2]. split; auto.
    destruct (Qmaxb_spec a (fold_right Qmaxb 0%Q l)) as [[? EE]|[? EE]]; rewrite EE; lra.
Qed.
