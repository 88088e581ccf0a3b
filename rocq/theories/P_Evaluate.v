(** Property C209: what the example scripts report as accuracy.  Specification: S_Evaluate. *)
From Coq Require Import Lia Lqa.
From Verif Require Import PyBase L_Base M_Note L_Note M_Evaluate S_Evaluate.
Open Scope list_scope.
Open Scope Z_scope.

Lemma hits_ok : forall l r n, hits l r n -> List.length (filter (fun b => b) (correct_of l)) = r /\ List.length (correct_of l) = n /\ (r <= n)%nat.
Proof.
  intros l r n H. induction H as [|x l r n T H (A & B & C)|x l r n T E H (A & B & C)|x l r n T E H (A & B & C)]; cbn; auto; unfold correct_of in *; cbn; rewrite T; cbn [map].
  - auto.
  - rewrite (proj2 (Z.eqb_eq _ _) E). cbn. split; [|split]; lia.
  - rewrite (proj2 (Z.eqb_neq _ _) E). cbn. split; [|split]; lia.
Qed.
Lemma mean_ok : forall l r n, hits l r n -> (n = 0%nat -> mean_of (correct_of l) = None) /\ (n <> 0%nat -> mean_of (correct_of l) = Some (of_nat r / of_nat n)%Q).
Proof.
  intros l r n H. destruct (hits_ok l r n H) as (A & B & _). unfold mean_of, trues, of_nat. rewrite A, B. destruct (correct_of l) as [|b c]; cbn [List.length] in B; split; intro; try lia; reflexivity.
Qed.
Lemma of_nat_pos : forall n, n <> 0%nat -> (0 < of_nat n)%Q.
Proof. intros n H. unfold of_nat. change 0%Q with (inject_Z 0). rewrite <- Zlt_Qlt. lia. Qed.
Lemma of_nat_nn : forall n, (0 <= of_nat n)%Q.
Proof. intros n. unfold of_nat. change 0%Q with (inject_Z 0). rewrite <- Zle_Qle. lia. Qed.
Lemma of_nat_le : forall n m, (n <= m)%nat -> (of_nat n <= of_nat m)%Q.
Proof. intros n m H. unfold of_nat. rewrite <- Zle_Qle. lia. Qed.
Lemma of_nat_add : forall n m, (of_nat (n + m) == of_nat n + of_nat m)%Q.
Proof. intros n m. unfold of_nat. rewrite Nat2Z.inj_add, inject_Z_plus. reflexivity. Qed.
Lemma correct_concat : forall bs, List.concat (map correct_of bs) = correct_of (List.concat bs).
Proof. unfold correct_of. induction bs as [|b bs IH]; auto. cbn [map List.concat]. rewrite IH, filter_app, map_app. reflexivity. Qed.

(** C209: the graph isomorphism example reports the share of the test nodes that are predicted rightly, over all batches
    (nan without a test node, a ValueError without a batch). *)
Theorem C209_gin : forall bs r n, hits (List.concat bs) r n ->
  (bs = [] -> gin_test bs = Err ValueError) /\ (bs <> [] -> n = 0%nat -> gin_test bs = Ok None) /\
  (n <> 0%nat -> exists q, gin_test bs = Ok (Some q) /\ (q * of_nat n == of_nat r)%Q /\ (0 <= q <= 1)%Q).
Proof.
  intros bs r n H. pose proof (mean_ok _ _ _ H) as [M0 M1]. destruct (hits_ok _ _ _ H) as (_ & _ & LE). rewrite <- correct_concat in M0, M1. unfold gin_test. split; [intros ->; auto|]. split.
  - intros NE N. destruct bs; [congruence|]. rewrite (M0 N). reflexivity.
  - intro N. destruct bs as [|b bs]; [inversion H; subst; congruence|]. exists (of_nat r / of_nat n)%Q. rewrite (M1 N). pose proof (of_nat_pos n N). split; auto. split; [field; lra|].
    pose proof (of_nat_nn r). pose proof (of_nat_le _ _ LE). split; [apply Qle_shift_div_l|apply Qle_shift_div_r]; lra.
Qed.
Print Assumptions C209_gin.

Lemma loop_acc : forall bs rns, Forall2 (fun b rn => hits b (fst rn) (snd rn)) bs rns -> forall a t,
  let s := fold_left (fun s b => (add_nan (fst s) (mean_of (correct_of b)), snd s + Z.of_nat (List.length (correct_of b)))) bs (a, t) in
  snd s = t + Z.of_nat (sum_tests rns) /\ (a = None \/ (exists rn, In rn rns /\ snd rn = 0%nat) -> fst s = None) /\
  (forall x, a = Some x -> (forall rn, In rn rns -> snd rn <> 0%nat) -> exists y, fst s = Some y /\ (y == x + sum_accuracies rns)%Q).
Proof.
  intros bs rns F. induction F as [|b [r n] bs rns H F IH]; intros a t s; subst s; cbn [fold_left fst snd] in *.
  - cbn [sum_tests sum_accuracies]. split; [lia|]. split; [intros [-> |(rn & [] & _)]; auto|]. intros x -> _. exists x. split; auto. ring.
  - destruct (hits_ok _ _ _ H) as (_ & L & _). destruct (mean_ok _ _ _ H) as [M0 M1]. specialize (IH (add_nan a (mean_of (correct_of b))) (t + Z.of_nat (List.length (correct_of b)))). cbv zeta in IH. destruct IH as (I1 & I2 & I3).
    rewrite L in *. cbn [sum_tests sum_accuracies]. split; [rewrite I1; lia|]. split.
    + intros [-> |(rn & [<-|I] & Z)]; apply I2; [left; reflexivity| |right; eauto]. cbn [snd] in Z. rewrite (M0 Z). left. destruct a; reflexivity.
    + intros x -> NZ. rewrite M1 in I3 by (apply (NZ (r, n)); left; auto). destruct (I3 (x + of_nat r / of_nat n)%Q eq_refl) as (y & Y & E); [intros rn I; apply NZ; right; auto|].
      exists y. rewrite (M1 (NZ (r, n) (or_introl eq_refl))). split; auto. rewrite E. ring.
Qed.
(** C209: example02 reports the sum of the accuracies of the batches divided by the number of test nodes, nan if a batch has no test
    node: not the accuracy, which it is only if every batch has a single test node. *)
Theorem C209_example02 : forall bs rns, bs <> [] -> Forall2 (fun b rn => hits b (fst rn) (snd rn)) bs rns ->
  ((exists rn, In rn rns /\ snd rn = 0%nat) -> example02_test bs = Ok None) /\
  ((forall rn, In rn rns -> snd rn <> 0%nat) -> exists q, example02_test bs = Ok (Some q) /\
     (q * of_nat (sum_tests rns) == sum_accuracies rns)%Q /\ (0 <= q * of_nat (sum_tests rns) <= of_nat (List.length bs))%Q /\
     ((q * of_nat (sum_tests rns) == of_nat (List.length bs))%Q <-> forall rn, In rn rns -> fst rn = snd rn)).
Proof.
  intros bs rns NE F. unfold example02_test, loop2. pose proof (loop_acc bs rns F (Some 0%Q) 0) as L. cbv zeta in L. set (s := fold_left _ bs _) in *. destruct s as [a t]. cbn [fst snd] in L. destruct L as (T & L1 & L2). subst t.
  rewrite Z.add_0_l. destruct bs as [|b bs]; [congruence|]. split.
  - intro E. rewrite (L1 (or_intror E)). reflexivity.
  - intro NZ. destruct (L2 _ eq_refl NZ) as (y & -> & Y). exists (y / inject_Z (Z.of_nat (sum_tests rns)))%Q. split; auto. fold (of_nat (sum_tests rns)).
    assert (P : sum_tests rns <> 0%nat) by (inversion F as [|? [r n] ? rns' H0 F' E1 E2]; subst; cbn; pose proof (NZ (r, n) (or_introl eq_refl)); cbn in *; lia).
    assert (Q0 : (y / of_nat (sum_tests rns) * of_nat (sum_tests rns) == sum_accuracies rns)%Q) by (rewrite Y; pose proof (of_nat_pos _ P); field; lra).
    split; auto. rewrite Q0. clear - F NZ. generalize dependent (b :: bs). intros l F.
    assert (G : (0 <= sum_accuracies rns <= of_nat (List.length l))%Q /\ ((sum_accuracies rns == of_nat (List.length l))%Q <-> (forall rn, In rn rns -> fst rn = snd rn))).
    { induction F as [|c [r n] l rns H F IH]; [split; [split; discriminate|split; [intros _ rn []|reflexivity]]|].
      destruct IH as [IH1 IH2]; [intros; apply NZ; right; auto|]. destruct (hits_ok _ _ _ H) as (_ & _ & LE). cbn [fst snd] in *. pose proof (NZ (r, n) (or_introl eq_refl)) as N. cbn [snd] in N. pose proof (of_nat_pos n N) as NP. pose proof (of_nat_nn r) as R0. pose proof (of_nat_le _ _ LE) as RN.
      cbn [sum_accuracies List.length]. assert (S1 : (of_nat (Datatypes.S (List.length l)) == 1 + of_nat (List.length l))%Q) by (rewrite <- Nat.add_1_l, of_nat_add; reflexivity). rewrite S1.
      assert (U : (0 <= of_nat r / of_nat n)%Q) by (apply Qle_shift_div_l; lra). assert (V : (of_nat r / of_nat n <= 1)%Q) by (apply Qle_shift_div_r; lra). split; [lra|]. split.
      - intros E rn [<-|I]; [cbn|apply IH2; auto; lra]. assert (W : (of_nat r / of_nat n == 1)%Q) by lra. assert (X0 : (of_nat r == (of_nat r / of_nat n) * of_nat n)%Q) by (field; lra). assert (X : (of_nat r == of_nat n)%Q) by (rewrite W in X0; lra). unfold of_nat in X. apply (proj1 (inject_Z_injective _ _)) in X. apply Nat2Z.inj in X. exact X.
      - intro A. rewrite (proj2 IH2) by (intros; apply A; right; auto). specialize (A (r, n) (or_introl eq_refl)). cbn in A. subst. assert (W : (of_nat n / of_nat n == 1)%Q) by (field; lra). lra. }
    destruct G as [G1 G2]. split; auto.
Qed.
Print Assumptions C209_example02.

(** C209: without a batch example02 divides by zero. *)
Theorem C209_no_batch : example02_test [] = Err ZeroDivisionError /\ gin_test [] = Err ValueError /\ gae_test [] [] = Err ZeroDivisionError /\ forall k, evaluate k [] = Err ZeroDivisionError.
Proof. split; [|split; [|split]]; reflexivity. Qed.
Print Assumptions C209_no_batch.

(** C209: the auto-encoder reports the share of the edges, there or not, that the decoder answers rightly, 1/2 being a no. *)
Theorem C209_gae : forall pos neg a b, such (fun v => (1 # 2 < v)%Q) pos a -> such (fun v => (v <= 1 # 2)%Q) neg b -> pos ++ neg <> [] ->
  exists q, gae_test pos neg = Ok q /\ (q * of_nat (List.length pos + List.length neg) == of_nat (a + b))%Q /\ (0 <= q <= 1)%Q.
Proof.
  intros pos neg a b A B NE. unfold gae_test. set (yt := map (fun _ => true) pos ++ map (fun _ => false) neg).
  assert (LT : List.length yt = (List.length pos + List.length neg)%nat) by (unfold yt; rewrite app_length, !map_length; auto).
  assert (LP : (List.length pos + List.length neg <> 0)%nat) by (rewrite <- app_length; destruct (pos ++ neg); [congruence|cbn; lia]).
  assert (T : trues (map (fun p => Bool.eqb (fst p) (snd p)) (combine (map (fun v => Qltb (1 # 2) v) (pos ++ neg)) yt)) = of_nat (a + b)).
  { unfold trues, of_nat. do 2 f_equal. unfold yt. clear - A B. induction A as [|x l c P A IH|x l c P A IH]; cbn [app map combine filter fst snd].
    - cbn [Nat.add]. induction B as [|x l c P B IH|x l c P B IH]; cbn [app map combine filter fst snd]; auto.
      + destruct (Qltb (1 # 2) x) eqn:E; [apply Qltb_lt in E; lra|]. cbn [Bool.eqb List.length]. rewrite IH. auto.
      + destruct (Qltb (1 # 2) x) eqn:E; [|apply Qltb_ge in E; lra]. cbn [Bool.eqb List.length]. rewrite IH. auto.
    - destruct (Qltb (1 # 2) x) eqn:E; [|apply Qltb_ge in E; lra]. cbn [Bool.eqb List.length Nat.add]. rewrite IH. auto.
    - destruct (Qltb (1 # 2) x) eqn:E; [apply Qltb_lt in E; lra|]. cbn [Bool.eqb List.length Nat.add]. rewrite IH. auto. }
  rewrite T, LT. assert (LE : (a + b <= List.length pos + List.length neg)%nat).
  { assert (G : forall (p : Q -> Prop) l c, such p l c -> (c <= List.length l)%nat) by (clear; intros p l c H; induction H; cbn; lia). apply G in A, B. lia. }
  fold (of_nat (List.length pos + List.length neg)). pose proof (of_nat_pos _ LP) as P. exists (of_nat (a + b) / of_nat (List.length pos + List.length neg))%Q.
  split; [destruct yt; [cbn in LT; lia|reflexivity]|]. split; [field; lra|]. pose proof (of_nat_nn (a + b)). pose proof (of_nat_le _ _ LE). split; [apply Qle_shift_div_l|apply Qle_shift_div_r]; lra.
Qed.
Print Assumptions C209_gae.

(** C209: the evaluation of the node classification example returns only if no batch has a mask column, and then
    zeros: no prediction ever counts. *)
Theorem C209_never_evaluated : forall k bs r, evaluate k bs = Ok r <-> bs <> [] /\ (forall b, In b bs -> no_columns b) /\ r = (0, 0, 0, 0)%Q.
Proof.
  intros k bs r. unfold evaluate. assert (L : evaluate_loop k bs = Ok tt <-> forall b, In b bs -> no_columns b).
  { induction bs as [|b bs IH]; [split; [intros _ b []|reflexivity]|]. cbn [evaluate_loop]. assert (B : evaluate_batch k b = Ok tt <-> no_columns b).
    { destruct b as [n|[|[|c cs]] m l p]; cbn.
      - split; [destruct (Nat.eqb n 3); discriminate|intros (m & l & p & E); discriminate].
      - split; [discriminate|intros (m' & l' & p' & E); discriminate].
      - split; auto. intros _. exists m, l, p. reflexivity.
      - split; [|intros (m' & l' & p' & E); discriminate]. unfold inner. destruct m as [|cs']; [discriminate|]. cbn. destruct (match cs' with [] => None | x :: _ => Some x end); [|discriminate]. destruct k; try discriminate. destruct (existsb _ _); discriminate. }
    destruct (evaluate_batch k b) as [[]|e]; cbn [bind].
    - rewrite IH. split; [intros H b' [<-|I]; [apply B; auto|auto]|intros H b' I; apply H; right; auto].
    - split; [discriminate|]. intro H. apply B. apply H. left; auto. }
  destruct (evaluate_loop k bs) as [[]|e] eqn:E; cbn [bind].
  - destruct bs as [|b bs]; [split; [discriminate|intros (H & _); congruence]|]. split.
    + intro H. apply Ok_inj in H. subst. split; [congruence|]. split; auto. apply L; auto.
    + intros (_ & _ & ->). reflexivity.
  - split; [discriminate|]. intros (_ & H & _). apply L in H. discriminate.
Qed.
Print Assumptions C209_never_evaluated.

(** C209: how it fails, at the first batch with a mask column: a batch in a list, masks with one dimension, no node in the first column,
    and otherwise the undefined out_train (an IndexError for the other two networks). *)
Theorem C209_evaluate_fails : forall k a b c, (forall x, In x a -> no_columns x) ->
  (b = InList 3 -> evaluate k (a ++ b :: c) = Err AttributeError) /\
  (forall m l p, b = Graph OneColumn m l p -> evaluate k (a ++ b :: c) = Err IndexError) /\
  (forall t0 ts m0 ms l p, b = Graph (Columns (t0 :: ts)) (Columns (m0 :: ms)) l p ->
     (k <> OtherNet -> evaluate k (a ++ b :: c) = Err IndexError) /\
     (k = OtherNet -> (forall x, In x m0 -> x = false) -> evaluate k (a ++ b :: c) = Err ZeroDivisionError) /\
     (k = OtherNet -> In true m0 -> evaluate k (a ++ b :: c) = Err NameError)).
Proof.
  intros k a b c A. assert (G : forall e, evaluate_batch k b = Err e -> evaluate k (a ++ b :: c) = Err e).
  { intros e E. unfold evaluate. assert (L : evaluate_loop k (a ++ b :: c) = Err e); [|rewrite L; reflexivity]. induction a as [|x a IH]; cbn [app evaluate_loop]; [rewrite E; reflexivity|].
    destruct (A x (or_introl eq_refl)) as (m & l & p & ->). cbn. apply IH. intros; apply A; right; auto. }
  split; [intros ->; apply G; reflexivity|]. split; [intros m l p ->; apply G; reflexivity|]. intros t0 ts m0 ms l p ->. split; [|split].
  - intro K. apply G. destruct k; cbn; auto. congruence.
  - intros -> F. apply G. cbn. replace (existsb _ m0) with false; auto. symmetry. apply Bool.not_true_is_false. intro X. apply existsb_exists in X as (x & I & X). rewrite (F x I) in X. discriminate.
  - intros -> I. apply G. cbn. replace (existsb _ m0) with true; auto. symmetry. apply existsb_exists. exists true. auto.
Qed.
Print Assumptions C209_evaluate_fails.

(** Two batches, all right: 2 batches over 3 test nodes, not 1. *)
Example C209_case :
  let b1 := [mkT 1 1 true; mkT 0 1 false; mkT 2 2 true] in let b2 := [mkT 0 0 true] in
  Forall2 (fun b rn => hits b (fst rn) (snd rn)) [b1; b2] [(2, 2); (1, 1)]%nat /\
  (exists q, example02_test [b1; b2] = Ok (Some q) /\ q == 2 # 3)%Q /\ (exists q, gin_test [b1; b2] = Ok (Some q) /\ q == 1)%Q /\
  example02_test [b1; []] = Ok None /\ (exists q, gae_test [3 # 4; 1 # 2] [1 # 2] = Ok q /\ q == 2 # 3)%Q /\
  such (fun v => (1 # 2 < v)%Q) [3 # 4; 1 # 2]%Q 1 /\ no_columns (Graph (Columns []) OneColumn [1] [1]) /\
  evaluate OtherNet [Graph (Columns [[true]]) (Columns [[true]]) [1] [1]] = Err NameError.
Proof.
  cbv zeta. split; [constructor; [cbn; apply hits_right; auto; apply hits_skip; auto; apply hits_right; auto; constructor|constructor; [cbn; apply hits_right; auto; constructor|constructor]]|].
  split; [eexists; split; [reflexivity|reflexivity]|]. split; [eexists; split; [reflexivity|reflexivity]|]. split; [reflexivity|]. split; [eexists; split; [reflexivity|reflexivity]|].
  split; [apply such_yes; [reflexivity|]; apply such_no; [discriminate|constructor]|]. split; [do 3 eexists; reflexivity|reflexivity].
Qed.
