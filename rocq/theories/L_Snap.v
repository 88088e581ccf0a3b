(** Lemmas for grouping notes in double precision. *)
From Coq Require Import Sorted Permutation QArith Qabs Qround Lia Lqa.
From Verif Require Import PyBase L_Base L_Note M_Note M_Ticks M_Seq S_Seq M_Chord M_Graph S_Graph M_Float L_Float M_Snap S_Snap L_Chord L_Chord2 L_Chord3 L_Graph L_Graph4 L_Graph5.
Open Scope Z_scope.

Lemma Qabs_le_iff : forall x y, (Qabs x <= y <-> - y <= x /\ x <= y)%Q.
Proof. intros. apply Qabs_Qle_condition. Qed.
Lemma div_nonneg : forall a b, (0 <= a)%Q -> (0 < b)%Q -> (0 <= a / b)%Q.
Proof. intros. apply Qle_shift_div_l; auto. lra. Qed.
Lemma rhe_nonneg : forall x, (0 <= x)%Q -> 0 <= round_half_even x.
Proof. intros x X. apply rhe_ge_Z. exact X. Qed.
Lemma inj_nonneg : forall z, 0 <= z -> (0 <= inject_Z z)%Q.
Proof. intros z H. change 0%Q with (inject_Z 0). rewrite <- Zle_Qle. exact H. Qed.
Lemma rd2_bounds : forall y, (y - (1 # 200) <= round_digits y 2 <= y + (1 # 200))%Q.
Proof.
  intro y. unfold round_digits. cbv zeta. change (10 ^ Z.of_nat 2) with 100. pose proof (rhe_bounds (y * inject_Z 100)) as [A B].
  set (r := inject_Z (round_half_even (y * inject_Z 100))) in *. clearbody r. change (inject_Z 100) with 100%Q in *.
  split; [apply Qle_shift_div_l|apply Qle_shift_div_r]; try lra; reflexivity.
Qed.
Lemma rd2_mono : forall x y, (x <= y)%Q -> (round_digits x 2 <= round_digits y 2)%Q.
Proof.
  intros x y L. unfold round_digits. cbv zeta. change (10 ^ Z.of_nat 2) with 100. unfold Qdiv. apply Qmul_le; [discriminate|].
  rewrite <- Zle_Qle. apply rhe_mono. apply Qmul_le; [discriminate|exact L].
Qed.
Lemma rd2_nonneg : forall y, (0 <= y)%Q -> (0 <= round_digits y 2)%Q.
Proof.
  intros y Y. unfold round_digits. cbv zeta. apply div_nonneg; [|reflexivity]. apply inj_nonneg, rhe_nonneg. apply Qmult_le_0_compat; [exact Y|discriminate].
Qed.

Lemma snap_nonneg : forall tol s, (0 <= tol)%Q -> (0 <= s)%Q -> (0 <= snap tol s)%Q.
Proof.
  intros tol s T A. unfold snap. destruct (Qeq_bool tol 0) eqn:E; [exact A|]. cbv zeta. assert (TP : (0 < tol)%Q).
  { apply Qeq_bool_neq in E. destruct (Qlt_le_dec 0 tol); auto. exfalso. apply E. lra. }
  apply fl_nonneg, rd2_nonneg, fl_nonneg. apply Qmult_le_0_compat; [|exact T]. apply inj_nonneg, rhe_nonneg, fl_nonneg. apply div_nonneg; auto.
Qed.
Lemma snap_mono : forall tol s t, (0 <= tol)%Q -> (0 <= s)%Q -> (s <= t)%Q -> (snap tol s <= snap tol t)%Q.
Proof.
  intros tol s t T A L. unfold snap. destruct (Qeq_bool tol 0) eqn:E; [exact L|]. cbv zeta. assert (TP : (0 < tol)%Q).
  { apply Qeq_bool_neq in E. destruct (Qlt_le_dec 0 tol); auto. exfalso. apply E. lra. }
  assert (NN : forall x, (0 <= x)%Q -> (0 <= inject_Z (round_half_even (fl (x / tol))) * tol)%Q).
  { intros x X. apply Qmult_le_0_compat; [|exact T]. apply inj_nonneg, rhe_nonneg, fl_nonneg. apply div_nonneg; auto. }
  apply fl_mono0; [apply rd2_nonneg, fl_nonneg, NN, A|]. apply rd2_mono. apply fl_mono0; [apply NN, A|]. apply Qmul_le; [exact T|].
  rewrite <- Zle_Qle. apply rhe_mono. apply fl_mono0; [apply div_nonneg; auto|]. unfold Qdiv. apply Qmul_le; auto. apply Qinv_le_0_compat. exact T.
Qed.
Lemma u_small : (0 < u /\ u < 1 # 1000)%Q.
Proof. split; reflexivity. Qed.
Lemma snap_near : forall tol s, (0 <= tol)%Q -> (0 <= s)%Q ->
  (Qabs (snap tol s - s) <= tol / 2 + (1 # 200) + (s + tol + 1) * (1 # 2 ^ 51))%Q.
Proof.
  intros tol s T A.
  assert (U4 : ((1 # 2 ^ 51) == 4 * u)%Q) by reflexivity. rewrite U4. clear U4. pose proof u_small as [U0 U1].
  unfold snap. destruct (Qeq_bool tol 0) eqn:E.
  { apply Qabs_le_iff. assert (H : (0 <= (s + tol + 1) * (4 * u))%Q) by (apply Qmult_le_0_compat; lra). unfold Qdiv. change (/ 2)%Q with (1 # 2)%Q. lra. }
  cbv zeta. assert (TP : (0 < tol)%Q).
  { apply Qeq_bool_neq in E. destruct (Qlt_le_dec 0 tol); auto. exfalso. apply E. lra. }
  set (q := (s / tol)%Q). assert (Q0 : (0 <= q)%Q) by (apply div_nonneg; auto).
  assert (QT : (q * tol == s)%Q) by (unfold q; field; lra).
  destruct (fl_err q Q0) as [Q1 Q2]. pose proof (rhe_bounds (fl q)) as [M1 M2].
  pose proof (inj_nonneg _ (rhe_nonneg _ (fl_nonneg _ Q0))) as M0. set (m := inject_Z (round_half_even (fl q))) in *. clearbody m.
  assert (M1' : (q * (1 - u) - (1 # 2) <= m)%Q) by lra. assert (M2' : (m <= q * (1 + u) + (1 # 2))%Q) by lra. clear M1 M2 Q1 Q2.
  assert (Y0 : (0 <= m * tol)%Q) by (apply Qmult_le_0_compat; auto).
  assert (Y1 : (s * (1 - u) - tol * (1 # 2) <= m * tol)%Q).
  { apply (Qmul_le _ _ tol) in M1'; [|auto]. rewrite <- QT. setoid_replace (q * tol * (1 - u) - tol * (1 # 2))%Q with ((q * (1 - u) - (1 # 2)) * tol)%Q by ring. exact M1'. }
  assert (Y2 : (m * tol <= s * (1 + u) + tol * (1 # 2))%Q).
  { apply (Qmul_le _ _ tol) in M2'; [|auto]. rewrite <- QT. setoid_replace (q * tol * (1 + u) + tol * (1 # 2))%Q with ((q * (1 + u) + (1 # 2)) * tol)%Q by ring. exact M2'. }
  set (y := (m * tol)%Q) in *. clearbody y. clear M1' M2' QT M0. destruct (fl_err y Y0) as [F1 F2]. pose proof (fl_nonneg y Y0) as F0. set (f := fl y) in *. clearbody f.
  pose proof (rd2_bounds f) as [R1 R2]. pose proof (rd2_nonneg f F0) as R0. set (r := round_digits f 2) in *. clearbody r.
  destruct (fl_err r R0) as [G1 G2]. set (a := fl r) in *. clearbody a.
  apply Qabs_le_iff. unfold Qdiv. change (/ 2)%Q with (1 # 2)%Q.
  assert (S0 : (0 <= s * u)%Q) by (apply Qmult_le_0_compat; lra). assert (T0 : (0 <= tol * u)%Q) by (apply Qmult_le_0_compat; lra).
  assert (SU : (s * u * u <= (1 # 1000) * (s * u))%Q) by (rewrite (Qmult_comm (s * u) u); apply Qmul_le; lra). assert (TU : (tol * u * u <= (1 # 1000) * (tol * u))%Q) by (rewrite (Qmult_comm (tol * u) u); apply Qmul_le; lra).
  assert (YU : (y * u <= (s * (1 + u) + tol * (1 # 2)) * u)%Q) by (apply Qmul_le; lra).
  assert (FU : (f * u <= (y * (1 + u)) * u)%Q) by (apply Qmul_le; lra).
  assert (RU : (r * u <= (f + (1 # 200)) * u)%Q) by (apply Qmul_le; lra).
  assert (YUU : (y * u * u <= (1 # 1000) * (y * u))%Q) by (rewrite (Qmult_comm (y * u) u); apply Qmul_le; [apply Qmult_le_0_compat|]; lra).
  split; lra.
Qed.

(** Agreement with exact arithmetic. *)
Lemma rhe_stable : forall x y, (x * (1 - u) <= y)%Q -> (y <= x * (1 + u))%Q -> off_half x -> round_half_even y = round_half_even x.
Proof.
  intros x y A B H. pose proof (rhe_bounds x) as [X1 X2]. pose proof (rhe_bounds y) as [Y1 Y2].
  set (a := round_half_even y) in *. set (b := round_half_even x) in *. clearbody a b.
  destruct (Z.lt_trichotomy a b) as [L|[E|L]]; auto; exfalso.
  - specialize (H (b - 1)). assert (Z1 : (inject_Z a <= inject_Z (b - 1))%Q) by (rewrite <- Zle_Qle; lia).
    unfold Zminus in *. rewrite inject_Z_plus in *. change (inject_Z (-(1))) with (-1)%Q in *.
    apply (Qlt_not_le _ _ H). change (1 # 2 ^ 53)%Q with u. apply Qabs_le_iff. lra.
  - specialize (H b). assert (Z1 : (inject_Z (b + 1) <= inject_Z a)%Q) by (rewrite <- Zle_Qle; lia).
    rewrite inject_Z_plus in *. change (inject_Z 1) with 1%Q in *.
    apply (Qlt_not_le _ _ H). change (1 # 2 ^ 53)%Q with u. apply Qabs_le_iff. lra.
Qed.
Lemma snap_exact : forall tol s, (0 < tol)%Q -> (0 <= s)%Q -> clear tol s -> snap tol s = fl (adjusted tol true 2 s).
Proof.
  intros tol s T A [C1 C2]. unfold snap, adjusted. replace (Qeq_bool tol 0) with false by (symmetry; destruct (Qeq_bool tol 0) eqn:E; auto; apply Qeq_bool_eq in E; lra).
  cbv zeta. assert (Q0 : (0 <= s / tol)%Q) by (apply div_nonneg; auto). destruct (fl_err _ Q0) as [F1 F2].
  rewrite (rhe_stable _ _ F1 F2 C1). specialize (C2 _ (round_nearest (s / tol))). set (m := round_half_even (s / tol)) in *.
  assert (M0 : (0 <= inject_Z m * tol)%Q) by (apply Qmult_le_0_compat; [apply inj_nonneg, rhe_nonneg; exact Q0|lra]).
  destruct (fl_err _ M0) as [G1 G2]. unfold round_digits. cbv zeta. change (inject_Z (10 ^ Z.of_nat 2)) with 100%Q.
  rewrite (rhe_stable (inject_Z m * tol * 100) (fl (inject_Z m * tol) * 100)); auto.
  - set (y := (inject_Z m * tol)%Q) in *. clearbody y. lra.
  - set (y := (inject_Z m * tol)%Q) in *. clearbody y. lra.
Qed.
Lemma key_exact : forall e tol s, env_ok e -> (0 <= tol)%Q -> (0 <= s)%Q -> is_double s -> ((0 < tol)%Q -> clear tol s) ->
  e_thash e (snap tol s) = e_thash (in_doubles e) (adjusted tol true 2 s).
Proof.
  intros e tol s [E1 _] T A D C. cbn. destruct (Qlt_le_dec 0 tol) as [TP|TP]; [rewrite snap_exact; auto|].
  assert (Z0 : (tol == 0)%Q) by lra. apply Qeq_bool_iff in Z0. unfold snap, adjusted. rewrite Z0. apply E1. symmetry. exact D.
Qed.
Lemma group_agree : forall e tol l data lg, env_ok e -> (0 <= tol)%Q ->
  (forall n, In n l -> sounding n -> (0 <= n_start n)%Q -> is_double (n_start n) /\ ((0 < tol)%Q -> clear tol (n_start n))) ->
  group_notes_f e tol data lg l = group_notes (in_doubles e) tol true 2 data lg l.
Proof.
  intros e tol l. induction l as [|n l IH]; intros data lg EO T H; [reflexivity|]. cbn [group_notes_f group_notes].
  assert (H' : forall x, In x l -> sounding x -> (0 <= n_start x)%Q -> is_double (n_start x) /\ ((0 < tol)%Q -> clear tol (n_start x))) by (intros; apply H; simpl; auto).
  destruct (n_drum n || (n_velocity n =? 0)) eqn:SB; [apply IH; auto|]. destruct (Qltb (n_start n) 0) eqn:L; [reflexivity|]. apply Qltb_ge in L. cbv zeta.
  assert (SN : sounding n) by (apply soundb_iff; unfold soundb; rewrite SB; reflexivity). destruct (H n (or_introl eq_refl) SN L) as [D C].
  replace (Qltb (snap tol (n_start n)) 0) with false by (symmetry; apply Qltb_ge, snap_nonneg; auto).
  replace (Qltb (adjusted tol true 2 (n_start n)) 0) with false by (symmetry; apply Qltb_ge, adjusted_nonneg; auto).
  rewrite (key_exact e tol (n_start n)) by auto. apply IH; auto.
Qed.
Lemma in_doubles_ok : forall e, env_ok e -> (forall a b, (a == b)%Q -> fl a = fl b) -> env_ok (in_doubles e).
Proof. intros e [E1 [E2 E3]] F. split; [|split; auto]. intros a b H. cbn. rewrite (F a b H). reflexivity. Qed.
Lemma fl_m : forall a b, (a == b)%Q -> fl a = fl b.
Proof.
  intros a b E. destruct (Qlt_le_dec a 0) as [N|N]; [|apply fl_m0; auto]. unfold fl.
  replace (Qltb 0 a) with false by (symmetry; apply Qltb_ge; lra). replace (Qltb 0 b) with false by (symmetry; apply Qltb_ge; lra).
  replace (Qltb a 0) with true by (symmetry; apply Qltb_lt; lra). replace (Qltb b 0) with true by (symmetry; apply Qltb_lt; lra).
  rewrite <- !fl_is_pos by lra. rewrite (fl_m0 (- a) (- b)); [reflexivity|lra|rewrite E; reflexivity].
Qed.

(** Groups. *)
Definition fkey (e : env) (tol : Q) (n : note) : Z := e_thash e (snap tol (n_start n)).
Lemma group_inv_f : forall e tol l pre data longest d' lg', inv_data (fkey e tol) pre data longest -> group_notes_f e tol data longest l = Ok (d', lg') ->
  inv_data (fkey e tol) (pre ++ l) d' lg'.
Proof.
  intros e tol l. induction l as [|n l IH]; intros pre data longest d' lg' I H.
  - cbn in H. injection H as <- <-. rewrite app_nil_r. exact I.
  - cbn [group_notes_f] in H. change (pre ++ n :: l) with (pre ++ [n] ++ l). rewrite app_assoc.
    destruct (n_drum n || (n_velocity n =? 0)) eqn:SB.
    + apply (IH _ _ _ _ _ (inv_skip (fkey e tol) pre data longest n ltac:(unfold soundb; rewrite SB; reflexivity) I) H).
    + destruct (Qltb (n_start n) 0); [discriminate|]. cbv zeta in H. destruct (Qltb (snap _ _) 0); [discriminate|].
      apply (IH _ _ _ _ _ (inv_put (fkey e tol) pre data longest n ltac:(unfold soundb; rewrite SB; reflexivity) I) H).
Qed.
Lemma group_total_f : forall e tol l data longest, (0 <= tol)%Q ->
  ((forall n, In n l -> sounding n -> (0 <= n_start n)%Q) -> exists p, group_notes_f e tol data longest l = Ok p) /\
  ((exists n, In n l /\ sounding n /\ (n_start n < 0)%Q) -> group_notes_f e tol data longest l = Err AssertionError).
Proof.
  intros e tol l. induction l as [|n l IH]; intros data longest T.
  - split; [intros _; eexists; reflexivity|intros [n [[] _]]].
  - cbn [group_notes_f]. destruct (n_drum n || (n_velocity n =? 0)) eqn:SB.
    + destruct (IH data longest T) as [A B]. split.
      * intros H. apply A. intros; apply H; simpl; auto.
      * intros [x [[->|X1] [X2 X3]]]; [|apply B; eauto]. exfalso. apply soundb_iff in X2. unfold soundb in X2. rewrite SB in X2. discriminate.
    + assert (SN : sounding n) by (apply soundb_iff; unfold soundb; rewrite SB; reflexivity).
      destruct (Qltb (n_start n) 0) eqn:L.
      * apply Qltb_lt in L. split; [|reflexivity]. intros H. exfalso. specialize (H n (or_introl eq_refl) SN). lra.
      * apply Qltb_ge in L. cbv zeta. replace (Qltb (snap tol (n_start n)) 0) with false by (symmetry; apply Qltb_ge; apply snap_nonneg; auto).
        match goal with |- context [group_notes_f _ _ ?d ?g _] => destruct (IH d g T) as [A B] end. split.
        -- intros H. apply A. intros; apply H; simpl; auto.
        -- intros [x [[->|X1] [X2 X3]]]; [lra|]. apply B. eauto.
Qed.
(** The groups of any dictionary built note by note. *)
Lemma groups_from : forall key notes d lg (filt : bool) data, inv_data key notes d lg ->
  (if filt then filter (fun kv => Nat.ltb 1 (List.length (snd kv))) d else d) = data -> groups_of key filt notes (in_key_order data).
Proof.
  intros key notes d lg filt data G H.
  assert (D : forall k g, In (k, g) data <-> g = members key k notes /\ g <> [] /\ (filt = true -> (2 <= List.length g)%nat)).
  { intros k g. destruct filt.
    - rewrite <- H. rewrite filter_In. rewrite (data_In key notes d lg k g G). cbn [snd]. rewrite Nat.ltb_lt. intuition lia.
    - rewrite <- H. rewrite (data_In key notes d lg k g G). intuition congruence. }
  assert (N : NoDup (map fst data)) by (destruct filt; rewrite <- H; [apply filter_keys_NoDup|]; apply G).
  clear H G. set (lt := fun a b : Z * list note => fst a <? fst b). unfold in_key_order. fold lt.
  assert (P : Permutation data (py_sort lt data)) by apply py_sort_perm.
  exists (map fst (py_sort lt data)). split; [apply key_sorted; exact N|]. split; [|split].
  - assert (F : Forall (fun kg => In kg data) (py_sort lt data)).
    { apply Forall_forall. intros x Hx. eapply Permutation_in; [symmetry; exact P|exact Hx]. }
    revert F. generalize (py_sort lt data). intros r F. induction r as [|[k g] r IH]; [constructor|]. inversion F as [|? ? F1 F2]; subst. cbn. constructor; [|auto].
    apply D in F1 as [F1 [F3 F4]]. split; [rewrite F1; apply members_selects|]. split; auto.
  - intros n Hn Sn ->. assert (I : In (key n, members key (key n) notes) data).
    { apply D. split; auto. split; [|discriminate]. intros E.
      assert (X : In n (members key (key n) notes)) by (unfold members; apply filter_In; split; auto; apply members_iff; auto). rewrite E in X. destruct X. }
    apply (in_map fst) in I. cbn in I. eapply Permutation_in; [apply Permutation_map; exact P|exact I].
  - intros k g Hg L. apply selects_members in Hg. assert (I : In (k, g) data).
    { apply D. split; auto. split; [|auto]. intros ->. cbn in L. lia. }
    apply (in_map fst) in I. cbn in I. eapply Permutation_in; [apply Permutation_map; exact P|exact I].
Qed.
Lemma compute_total_f : forall e s tol f, (0 <= tol)%Q -> (forall n, In n (q_notes s) -> sounding n -> (0 <= n_start n)%Q) ->
  exists data lg, compute_data_f e s tol f = Ok (data, lg) /\ groups_of (fkey e tol) f (q_notes s) (in_key_order data) /\
    (forall k g, selects (fun n => sounding n /\ fkey e tol n = k) (q_notes s) g -> Z.of_nat (List.length g) <= lg) /\
    (lg = 0 \/ exists k g, selects (fun n => sounding n /\ fkey e tol n = k) (q_notes s) g /\ Z.of_nat (List.length g) = lg).
Proof.
  intros e s tol f T H. destruct (proj1 (group_total_f e tol (q_notes s) [] 0 T) H) as [[d lg] P].
  eexists _, lg. split; [unfold compute_data_f; rewrite P; reflexivity|]. cbn [fst snd].
  apply (group_inv_f e _ _ [] [] 0) in P; [|apply inv_empty_data]. cbn [app] in P. split; [eapply groups_from; [exact P|reflexivity]|].
  destruct P as [_ [_ [P1 P2]]]. split.
  - intros k g G. apply selects_members in G. subst g. apply P1.
  - destruct P2 as [P2|[k P2]]; [auto|right]. exists k. eexists. split; [apply members_selects|exact P2].
Qed.
Lemma groups_same : forall key f notes gs g n1 n2, groups_of key f notes gs -> In g gs -> In n1 g -> (In n2 g <-> In n2 notes /\ sounding n2 /\ key n2 = key n1).
Proof.
  intros key f notes gs g n1 n2 [ks [_ [F _]]] G I1.
  assert (K : exists k, selects (fun n => sounding n /\ key n = k) notes g).
  { clear - F G. induction F as [|k x ks gs [A _] F IH]; [destruct G|]. destruct G as [->|G]; eauto. }
  destruct K as [k K]. apply selects_members in K. subst g. unfold members in *. apply filter_In in I1 as [A B].
  assert (KB : forall n, soundb n && (key n =? k) = true <-> sounding n /\ key n = k).
  { intro n. rewrite andb_true_iff, Z.eqb_eq, soundb_iff. tauto. }
  apply KB in B as [B1 B2]. rewrite filter_In, KB. rewrite B2. tauto.
Qed.
