(** Lemmas for the evaluation of a trained network. *)
From Coq Require Import Lia Lqa.
From Verif Require Import PyBase L_Base M_Train S_Train.
Open Scope Z_scope.

Lemma count_nil {A} (p : A -> bool) : count p [] = 0%Q. Proof. reflexivity. Qed.
Lemma count_cons {A} (p : A -> bool) x l : (count p (x :: l) == (if p x then 1 else 0) + count p l)%Q.
Proof. unfold count. cbn [filter]. destruct (p x); [|lra]. cbn [List.length]. rewrite Nat2Z.inj_succ, <- Z.add_1_l, inject_Z_plus. reflexivity. Qed.
Lemma count_pos {A} (l : list A) : l <> [] -> (0 < count (fun _ => true) l)%Q.
Proof. destruct l; [congruence|]. intros _. rewrite count_cons. unfold count. assert (0 <= inject_Z (Z.of_nat (List.length (filter (fun _ : A => true) l))))%Q by (change 0%Q with (inject_Z 0); rewrite <- Zle_Qle; lia). lra. Qed.
Lemma count_nonneg {A} (p : A -> bool) l : (0 <= count p l)%Q.
Proof. unfold count. change 0%Q with (inject_Z 0). rewrite <- Zle_Qle. lia. Qed.
Lemma count_ext {A} (p q : A -> bool) l : (forall x, In x l -> p x = q x) -> count p l = count q l.
Proof. intros H. unfold count. f_equal. f_equal. f_equal. induction l; cbn; auto. rewrite (H a); [|left; auto]. rewrite IHl; auto. intros. apply H. right; auto. Qed.

Lemma qsum_plus {A} (f g : A -> Q) l : (qsum (map (fun x => f x + g x) l) == qsum (map f l) + qsum (map g l))%Q.
Proof. induction l; cbn; [lra|]. rewrite IHl. lra. Qed.
Lemma qsum_ext {A} (f g : A -> Q) l : (forall x, In x l -> (f x == g x)%Q) -> (qsum (map f l) == qsum (map g l))%Q.
Proof. intros H. induction l; cbn; [lra|]. rewrite (H a), IHl; [lra| |left; auto]. intros. apply H. right; auto. Qed.
Lemma qsum_zero {A} (f : A -> Q) l : (forall x, In x l -> (f x == 0)%Q) -> (qsum (map f l) == 0)%Q.
Proof. intros H. rewrite (qsum_ext f (fun _ => 0%Q) l H). clear. induction l; cbn; lra. Qed.
Lemma one_label v (b : bool) ls : NoDup ls -> In v ls -> (qsum (map (fun c => if (v =? c) && b then 1 else 0) ls) == if b then 1 else 0)%Q.
Proof.
  intros N I. induction ls as [|c ls IH]; [destruct I|]. inversion N as [|? ? N1 N2]; subst. cbn [map qsum]. destruct I as [->|I].
  - rewrite Z.eqb_refl. cbn [andb]. rewrite qsum_zero; [lra|]. intros x X. destruct (v =? x) eqn:E; [apply Z.eqb_eq in E; subst; contradiction|]. cbn. lra.
  - rewrite IH; auto. destruct (v =? c) eqn:E; [apply Z.eqb_eq in E; subst; contradiction|]. cbn [andb]. lra.
Qed.
Lemma partition {A} (f : A -> Z) (q : A -> bool) ls l : NoDup ls -> (forall x, In x l -> In (f x) ls) ->
  (qsum (map (fun c => count (fun x => (f x =? c) && q x) l) ls) == count q l)%Q.
Proof.
  intros N. induction l as [|x l IH]; intros H.
  - apply qsum_zero. intros. reflexivity.
  - rewrite count_cons. rewrite <- IH by (intros; apply H; right; auto). rewrite <- (one_label (f x) (q x) ls N) by (apply H; left; auto).
    rewrite <- qsum_plus. apply qsum_ext. intros c _. exact (count_cons (fun y => (f y =? c) && q y) x l).
Qed.

Definition share_of (l : list (Z * Z)) : Q := (count (fun x => fst x =? snd x) l / count (fun _ => true) l)%Q.
Lemma labels_nodup l : NoDup (labels l). Proof. apply NoDup_nodup. Qed.
Lemma tp_count l : (tp_sum l == count (fun x => fst x =? snd x) l)%Q.
Proof.
  unfold tp_sum. rewrite <- (partition fst (fun x => fst x =? snd x) (labels l) l (labels_nodup l)).
  - apply qsum_ext. intros c _. erewrite count_ext; [reflexivity|]. intros x _. cbn beta. destruct (Z.eqb_spec (fst x) c) as [E|E]; cbn [andb]; auto. rewrite E, ?Z.eqb_refl. apply Z.eqb_sym.
  - intros x X. apply nodup_In, in_app_iff. left. apply in_map. auto.
Qed.
Lemma pred_count l : (pred_sum l == count (fun _ => true) l)%Q.
Proof.
  unfold pred_sum. rewrite <- (partition fst (fun _ => true) (labels l) l (labels_nodup l)).
  - apply qsum_ext. intros c _. erewrite count_ext; [reflexivity|]. intros x _. cbn. rewrite andb_true_r. auto.
  - intros x X. apply nodup_In, in_app_iff. left. apply in_map. auto.
Qed.
Lemma true_count l : (true_sum l == count (fun _ => true) l)%Q.
Proof.
  unfold true_sum. rewrite <- (partition snd (fun _ => true) (labels l) l (labels_nodup l)).
  - apply qsum_ext. intros c _. erewrite count_ext; [reflexivity|]. intros x _. cbn. rewrite andb_true_r. auto.
  - intros x X. apply nodup_In, in_app_iff. right. apply in_map. auto.
Qed.
Lemma micro_p l : (micro_precision l == share_of l)%Q.
Proof. unfold micro_precision, share_of. rewrite tp_count, pred_count. reflexivity. Qed.
Lemma micro_r l : (micro_recall l == share_of l)%Q.
Proof. unfold micro_recall, share_of. rewrite tp_count, true_count. reflexivity. Qed.
Lemma micro_f l : (micro_f1 l == share_of l)%Q.
Proof.
  unfold micro_f1. cbv zeta. rewrite micro_p, micro_r. set (s := share_of l). destruct (Qeq_dec s 0) as [E|E].
  - rewrite E. reflexivity.
  - field. intros H. apply E. lra.
Qed.
Lemma scores_ok l : l <> [] -> exists r, scores l = Ok r /\ Forall (Qeq (share_of l)) r /\ List.length r = 4%nat.
Proof.
  intros N. unfold scores, accuracy. destruct l as [|x l]; [congruence|]. cbn [bind]. eexists. split; [reflexivity|]. split; [|reflexivity].
  constructor; [reflexivity|]. constructor; [symmetry; apply micro_f|]. constructor; [symmetry; apply micro_p|]. constructor; [symmetry; apply micro_r|]. constructor.
Qed.
Lemma scores_err : scores [] = Err ZeroDivisionError. Proof. reflexivity. Qed.

Lemma run_ok {A B} (f : A -> res B) (R : A -> B -> Prop) l : (forall x, In x l -> exists y, f x = Ok y /\ R x y) -> exists ys, run f l = Ok ys /\ Forall2 R l ys.
Proof.
  induction l as [|x l IH]; intros H; cbn [run]; [exists []; split; auto|].
  destruct (H x) as (y & E & Y); [left; auto|]. rewrite E. cbn [bind]. destruct IH as (ys & E2 & F); [intros; apply H; right; auto|]. rewrite E2. cbn [bind]. exists (y :: ys). split; auto.
Qed.
Lemma run_err {A B} (f : A -> res B) e l : (forall x, In x l -> (exists y, f x = Ok y) \/ f x = Err e) -> (exists x, In x l /\ f x = Err e) -> run f l = Err e.
Proof.
  induction l as [|x l IH]; intros H (z & Z1 & Z2); [destruct Z1|]. cbn [run]. destruct (H x) as [[y E]|E]; [left; auto| |]; rewrite E; cbn [bind]; [|reflexivity].
  rewrite IH; [reflexivity|intros; apply H; right; auto|]. exists z. split; auto. destruct Z1 as [->|]; auto. rewrite E in Z2. discriminate.
Qed.

(** Parts and mask numbers. *)
Definition part_no (p : part) : nat := match p with Training => 0 | Validation => 1 | Testing => 2 end%nat.
Lemma in_mask_belongs p i x : in_mask (part_no p) i x = belongs p i x. Proof. destruct p; reflexivity. Qed.
Lemma masked_members p i b : masked b (part_no p) i = map (fun x => (n_pred x, n_label x)) (members p i b).
Proof. unfold masked, members. f_equal. apply filter_ext. intros. apply in_mask_belongs. Qed.
Lemma masked_nil p i b : masked b (part_no p) i = [] <-> members p i b = [].
Proof. rewrite masked_members. split; [apply map_eq_nil|intros ->; reflexivity]. Qed.
Lemma share_masked p i b : (share_of (masked b (part_no p) i) == share p b i)%Q.
Proof.
  unfold share_of, share. rewrite masked_members. unfold count, size, right_ones.
  assert (E1 : forall q (l : list node), List.length (filter q (map (fun x => (n_pred x, n_label x)) l)) = List.length (filter (fun x => q (n_pred x, n_label x)) l)).
  { clear. intros q l. induction l; cbn; auto. destruct (q _); cbn; auto. }
  rewrite !E1. cbn [fst snd].
  assert (E2 : forall (l : list node), filter (fun _ : node => true) l = l) by (clear; intros l; induction l; cbn; f_equal; auto). rewrite E2. reflexivity.
Qed.
Lemma parts m : In m [0; 1; 2]%nat -> exists p, m = part_no p.
Proof. intros [<-|[<-|[<-|[]]]]; [exists Training|exists Validation|exists Testing]; reflexivity. Qed.
Lemma part_in p : In (part_no p) [0; 1; 2]%nat. Proof. destruct p; cbn; auto. Qed.

(** One row of the table. *)
Definition row_of (b : batch) (i : nat) (row : list (list Q)) : Prop :=
  forall p s, (s < 4)%nat -> (nth s (nth (part_no p) row []) 0 == share p b i)%Q.
Lemma row_ok b i : (forall p, members p i b <> []) -> exists row, run (fun m => scores (masked b m i)) [0; 1; 2]%nat = Ok row /\ row_of b i row.
Proof.
  intros N. destruct (run_ok (fun m => scores (masked b m i)) (fun m r => Forall (Qeq (share_of (masked b m i))) r /\ List.length r = 4%nat) [0; 1; 2]%nat) as (row & E & F).
  { intros m M. apply parts in M as [p ->]. destruct (scores_ok (masked b (part_no p) i)) as (r & H); [rewrite masked_nil; auto|]. exists r. auto. }
  exists row. split; auto. intros p s S4. rewrite <- share_masked.
  assert (G : forall (x : list Q) q, Forall (Qeq q) x /\ List.length x = 4%nat -> (nth s x 0 == q)%Q).
  { intros x q [X L]. rewrite Forall_forall in X. symmetry. apply X, nth_In. lia. }
  inversion F as [|? r0 ? l0 F0 F0']; subst. inversion F0' as [|? r1 ? l1 F1 F1']; subst. inversion F1' as [|? r2 ? l2 F2 F2']; subst. destruct p; cbn [part_no nth]; apply G; auto.
Qed.
Lemma row_err b i : (exists p, members p i b = []) -> run (fun m => scores (masked b m i)) [0; 1; 2]%nat = Err ZeroDivisionError.
Proof.
  intros (p & E). apply run_err.
  - intros m M. apply parts in M as [p' ->]. destruct (masked b (part_no p') i) as [|x l]; [right; reflexivity|left]. destruct (scores_ok (x :: l)) as (r & R & _); [discriminate|eauto].
  - exists (part_no p). split; [apply part_in|]. apply masked_nil in E. rewrite E. reflexivity.
Qed.
Lemma parts_dec b i : (forall p, members p i b <> []) \/ exists p, members p i b = [].
Proof.
  destruct (members Training i b) eqn:E1; [right; eauto|]. destruct (members Validation i b) eqn:E2; [right; eauto|]. destruct (members Testing i b) eqn:E3; [right; eauto|].
  left. intros []; congruence.
Qed.
Lemma table_ok b : ~ has_empty_mask b -> exists t, table b = Ok t /\ Forall2 (row_of b) (seq 0 (b_splits b)) t.
Proof.
  intros N. unfold table. apply run_ok. intros i I. apply in_seq in I. destruct (parts_dec b i) as [H|[p H]]; [apply row_ok; auto|]. exfalso. apply N. exists p, i. split; [lia|auto].
Qed.
Lemma table_err b : has_empty_mask b -> table b = Err ZeroDivisionError.
Proof.
  intros (p & i & I & E). unfold table. apply run_err.
  - intros j J. destruct (parts_dec b j) as [H|H]; [left; destruct (row_ok b j H) as (r & R & _); eauto|right; apply row_err; auto].
  - exists i. split; [apply in_seq; lia|]. apply row_err. eauto.
Qed.
Lemma qsum_F2 {A B} (f : A -> Q) (g : B -> Q) l l' : Forall2 (fun a b => (f a == g b)%Q) l l' -> (qsum (map g l') == total (map f l))%Q.
Proof. induction 1 as [|a b l l' E F IH]; cbn; [lra|]. rewrite IH, E. reflexivity. Qed.
Lemma F2_len {A B} (R : A -> B -> Prop) l l' : Forall2 R l l' -> List.length l = List.length l'.
Proof. induction 1; cbn; auto. Qed.
Lemma F2_imp {A B} (R R' : A -> B -> Prop) l l' : (forall a b, R a b -> R' a b) -> Forall2 R l l' -> Forall2 R' l l'.
Proof. intros H. induction 1; constructor; auto. Qed.

Definition row3 (b : batch) (r : list (list Q)) : Prop := List.length r = 4%nat /\ (forall s, (s < 4)%nat -> List.length (nth s r []) = 3%nat) /\
  forall s p, (s < 4)%nat -> (nth (part_no p) (nth s r []) 0 == batch_share p b)%Q.
Lemma test_ok b : ~ has_empty_mask b -> (0 < b_splits b)%nat -> exists r, test b = Ok r /\ row3 b r.
Proof.
  intros N S0. destruct (table_ok b N) as (t & E & F). unfold test. rewrite E. cbn [bind]. eexists. split; [reflexivity|].
  assert (L : List.length t = b_splits b) by (rewrite <- (F2_len _ _ _ F), seq_length; auto).
  assert (T : t <> []) by (intros ->; cbn in L; lia).
  assert (K : forall s, column_means s t = map (fun m => (qsum (map (fun row => nth s (nth m row []) 0%Q) t) / inject_Z (Z.of_nat (List.length t)))%Q) [0; 1; 2]%nat).
  { intros s. unfold column_means. destruct t; [congruence|reflexivity]. }
  assert (V : forall s p, (s < 4)%nat -> (qsum (map (fun row => nth s (nth (part_no p) row []) 0%Q) t) / inject_Z (Z.of_nat (List.length t)) == batch_share p b)%Q).
  { intros s p S4. unfold batch_share, mean, size. rewrite map_length, seq_length, L. rewrite (qsum_F2 (share p b) (fun row => nth s (nth (part_no p) row []) 0%Q) (seq 0 (b_splits b)) t); [reflexivity|].
    eapply F2_imp; [|exact F]. intros i row R. symmetry. apply R. auto. }
  split; [reflexivity|]. split.
  - intros s S4. do 4 (destruct s as [|s]; [cbn [map nth]; rewrite K; reflexivity|]). lia.
  - intros s p S4. assert (X : nth s (map (fun s => column_means s t) [0; 1; 2; 3]%nat) [] = column_means s t) by (do 4 (destruct s as [|s]; [reflexivity|]); lia).
    rewrite X, K, <- (V s p S4). destruct p; reflexivity.
Qed.
Lemma test_none b : b_splits b = 0%nat -> test b = Ok [[]; []; []; []].
Proof. intros E. unfold test, table. rewrite E. reflexivity. Qed.
Lemma test_err b : has_empty_mask b -> test b = Err ZeroDivisionError.
Proof. intros H. unfold test. rewrite table_err; auto. Qed.

Definition good (b : batch) : Prop := (0 < b_splits b)%nat /\ ~ has_empty_mask b.
Lemma test_row_ok b : good b -> exists r, test_row b = Ok r /\ row3 b r.
Proof.
  intros [S0 N]. destruct (test_ok b N S0) as (r & E & R). exists r. split; auto. unfold test_row. rewrite E. cbn [bind].
  replace (forallb _ r) with true; auto. symmetry. apply forallb_forall. intros x X. apply Nat.eqb_eq. destruct R as (L & R & _). apply In_nth with (d := []) in X as (s & S4 & <-). apply R. lia.
Qed.
Lemma batch_dec b : good b \/ has_empty_mask b \/ b_splits b = 0%nat.
Proof.
  destruct (Nat.eq_dec (b_splits b) 0) as [|S0]; auto.
  assert (D : forall n, (exists p i, (i < n)%nat /\ members p i b = []) \/ ~ (exists p i, (i < n)%nat /\ members p i b = [])).
  { induction n as [|n [H|H]]; [right; intros (? & ? & ? & _); lia|left; destruct H as (p & i & I & E); exists p, i; split; auto; lia|].
    destruct (parts_dec b n) as [G|[p G]]; [right|left; exists p, n; auto]. intros (p & i & I & E). destruct (Nat.eq_dec i n) as [->|]; [apply (G p); auto|apply H; exists p, i; split; auto; lia]. }
  destruct (D (b_splits b)) as [H|H]; [auto|]. left. split; [lia|auto].
Qed.
Lemma better_spec v x l : greatest v l -> greatest (better v (Some x)) (l ++ [x]).
Proof.
  intros (E & P & F). unfold better. destruct (Qltb v x) eqn:C.
  - apply Qltb_lt in C. split; [right; apply Exists_exists; exists x; split; [apply in_app_iff; right; left; auto|reflexivity]|]. split; [lra|]. apply Forall_app. split; [|constructor; [lra|constructor]].
    eapply Forall_impl; [|exact F]. cbn. intros. lra.
  - apply Qltb_ge in C. split; [destruct E as [E|E]; [auto|right; apply Exists_app; auto]|]. split; auto. apply Forall_app. split; auto.
Qed.
Lemma greatest_eq v v' l l' : greatest v l -> Forall2 Qeq l l' -> greatest v' l' -> (v == v')%Q.
Proof.
  intros (E & P & F) EQ (E' & P' & F'). apply Qle_antisym.
  - destruct E as [E|E]; [rewrite E; auto|]. apply Exists_exists in E as (x & X & ->). rewrite Forall_forall in F'. clear - EQ X F'. induction EQ; [destruct X|]. destruct X as [<-|X]; [rewrite H; apply F'; left; auto|apply IHEQ; auto; intros; apply F'; right; auto].
  - destruct E' as [E'|E']; [rewrite E'; auto|]. apply Exists_exists in E' as (x & X & ->). rewrite Forall_forall in F. clear - EQ X F. induction EQ; [destruct X|]. destruct X as [<-|X]; [rewrite <- H; apply F; left; auto|apply IHEQ; auto; intros; apply F; right; auto].
Qed.
Lemma greatest_comp v l l' : Forall2 Qeq l l' -> greatest v l -> greatest v l'.
Proof.
  intros EQ (E & P & F). split; [|split; auto].
  - destruct E as [E|E]; auto. right. clear - EQ E. induction EQ; inversion E; subst; [left; rewrite <- H; auto|right; auto].
  - clear - EQ F. induction EQ; constructor; inversion F; subst; auto. rewrite <- H. auto.
Qed.
Lemma mean_rows s p e rows : (s < 4)%nat -> e <> [] -> Forall2 row3 e rows -> exists x, batch_mean s (part_no p) rows = Some x /\ (x == epoch_share p e)%Q.
Proof.
  intros S4 NE F. unfold batch_mean. destruct rows as [|r rows]; [inversion F; subst; congruence|]. eexists. split; [reflexivity|]. unfold epoch_share, mean, size. rewrite map_length, (F2_len _ _ _ F).
  rewrite (qsum_F2 (batch_share p) (fun r => nth (part_no p) (nth s r []) 0%Q) e (r :: rows)); [reflexivity|]. eapply F2_imp; [|exact F]. intros b x (_ & _ & X). symmetry. apply X; auto.
Qed.
Definition worths (p : part) (es : list (list batch)) : list Q := map (epoch_share p) (filter (fun e => negb (Nat.eqb (List.length e) 0)) es).
Lemma greatest_more v l x y : greatest v (l ++ [x]) -> (x == y)%Q -> greatest v (l ++ [y]).
Proof. intros G E. eapply greatest_comp; [|exact G]. apply Forall2_app; [clear; induction l; constructor; auto; reflexivity|constructor; auto]. Qed.
Lemma loop_ok es : Forall (Forall good) es -> forall done a b c d, greatest a (worths Validation done) -> greatest b (worths Testing done) -> greatest c (worths Validation done) -> greatest d (worths Testing done) ->
  exists a' b' c' d', trainer_loop es (a, b, c, d) = Ok (a', b', c', d') /\ greatest a' (worths Validation (done ++ es)) /\ greatest b' (worths Testing (done ++ es)) /\
    greatest c' (worths Validation (done ++ es)) /\ greatest d' (worths Testing (done ++ es)).
Proof.
  induction 1 as [|e es G GS IH]; intros done a b c d A B C D; cbn [trainer_loop].
  - rewrite app_nil_r. do 4 eexists. split; [reflexivity|auto].
  - destruct (run_ok test_row row3 e) as (rows & R & F). { intros x X. rewrite Forall_forall in G. apply test_row_ok, G, X. } rewrite R. cbn [bind].
    replace (done ++ e :: es) with ((done ++ [e]) ++ es) by (rewrite <- app_assoc; reflexivity).
    destruct e as [|b0 e0] eqn:Ee.
    + inversion F; subst. cbn [batch_mean better]. assert (W : forall p, worths p (done ++ [[]]) = worths p done) by (intros p; unfold worths; rewrite filter_app; cbn; rewrite app_nil_r; auto).
      apply IH; rewrite W; auto.
    + rewrite <- Ee in *. assert (NE : e <> []) by (rewrite Ee; discriminate).
      assert (W : forall p, worths p (done ++ [e]) = worths p done ++ [epoch_share p e]) by (intros p; unfold worths; rewrite filter_app, map_app; rewrite Ee; reflexivity).
      destruct (mean_rows 0 Validation e rows ltac:(lia) NE F) as (x1 & B1 & E1). destruct (mean_rows 0 Testing e rows ltac:(lia) NE F) as (x2 & B2 & E2).
      destruct (mean_rows 1 Validation e rows ltac:(lia) NE F) as (x3 & B3 & E3). destruct (mean_rows 1 Testing e rows ltac:(lia) NE F) as (x4 & B4 & E4).
      cbn [part_no] in B1, B2, B3, B4. rewrite B1, B2, B3, B4.
      apply IH; rewrite W; eapply greatest_more; eauto using better_spec.
Qed.
