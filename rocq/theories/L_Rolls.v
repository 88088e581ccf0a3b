From Verif Require Import PyBase L_Base M_Rolls S_Rolls.
From Coq Require Import Lia Lqa Permutation Arith Setoid.
Open Scope Q_scope.

Notation len := (@List.length _).

Lemma add_prefix_len : forall row v, len (add_prefix row v) = len row.
Proof. induction row as [|x row IH]; intros [|y v]; cbn; auto. Qed.
Lemma add_prefix_nth : forall row v j, (len v <= len row)%nat -> nth j (add_prefix row v) 0 == nth j row 0 + nth j v 0.
Proof.
  induction row as [|x row IH]; intros [|y v] j H; cbn [add_prefix].
  - destruct j; cbn; lra.
  - cbn in H. lia.
  - replace (nth j [] 0) with 0 by (destruct j; reflexivity). lra.
  - destruct j; cbn [nth]; [lra|]. apply IH. cbn in H. lia.
Qed.
Lemma add_rows_len : forall a b, len (add_rows a b) = len a.
Proof. induction a as [|x a IH]; intros [|y b]; cbn; auto. Qed.
Lemma add_rows_width : forall w a b, Forall (fun r => len r = w) a -> Forall (fun r => len r = w) (add_rows a b).
Proof.
  intros w a. induction a as [|x a IH]; intros [|y b] H; cbn; auto. inversion H; subst.
  constructor; [apply add_prefix_len|apply IH; auto].
Qed.
Lemma add_rows_entry : forall a b i j w, len a = len b -> Forall (fun r => len r = w) a -> Forall (fun r => (len r <= w)%nat) b ->
  entry (add_rows a b) i j == entry a i j + entry b i j.
Proof.
  unfold entry. induction a as [|x a IH]; intros [|y b] i j w L A B; try discriminate.
  - cbn. destruct i, j; cbn; lra.
  - inversion A; inversion B; subst. destruct i; cbn [add_rows nth].
    + apply add_prefix_nth. lia.
    + eapply IH; eauto.
Qed.

Lemma sum_of_app : forall A (f : A -> Q) l r, sum_of f (l ++ r) == sum_of f l + sum_of f r.
Proof. intros. unfold sum_of. induction l as [|a l IH]; cbn [app fold_right]; [lra|]. rewrite IH. lra. Qed.
Lemma sum_of_ext : forall A (f g : A -> Q) l, (forall a, In a l -> f a == g a) -> sum_of f l == sum_of g l.
Proof.
  intros A f g l H. unfold sum_of. induction l as [|a l IH]; cbn [fold_right]; [lra|].
  rewrite (H a) by (left; auto). rewrite IH by (intros; apply H; right; auto). lra.
Qed.
Lemma sum_of_plus : forall A (f g : A -> Q) l, sum_of (fun a => f a + g a) l == sum_of f l + sum_of g l.
Proof. intros. unfold sum_of. induction l as [|a l IH]; cbn [fold_right]; [lra|]. rewrite IH. lra. Qed.
Lemma sum_of_scale : forall A (f : A -> Q) c l, sum_of (fun a => f a * c) l == sum_of f l * c.
Proof. intros. unfold sum_of. induction l as [|a l IH]; cbn [fold_right]; [lra|]. rewrite IH. lra. Qed.
Lemma sum_of_zero : forall A (l : list A), sum_of (fun _ => 0) l == 0.
Proof. intros. unfold sum_of. induction l as [|a l IH]; cbn [fold_right]; [lra|]. rewrite IH. lra. Qed.
Lemma sum_of_swap : forall A B (f : A -> B -> Q) l r, sum_of (fun a => sum_of (f a) r) l == sum_of (fun b => sum_of (fun a => f a b) l) r.
Proof.
  intros A B f l r. induction l as [|a l IH].
  - cbn. symmetry. apply sum_of_zero.
  - change (sum_of (f a) r + sum_of (fun a => sum_of (f a) r) l == sum_of (fun b => f a b + sum_of (fun a => f a b) l) r).
    rewrite sum_of_plus, IH. reflexivity.
Qed.
Lemma sum_of_perm : forall A (f : A -> Q) l r, Permutation l r -> sum_of f l == sum_of f r.
Proof. intros A f l r P. unfold sum_of. induction P; cbn [fold_right]; lra. Qed.
Lemma sum_of_nonneg : forall A (f : A -> Q) l, (forall a, In a l -> 0 <= f a) -> 0 <= sum_of f l.
Proof.
  intros A f l H. unfold sum_of. induction l as [|a l IH]; cbn [fold_right]; [lra|].
  assert (0 <= f a) by (apply H; left; auto). assert (0 <= fold_right (fun a s => f a + s) 0 l) by (apply IH; intros; apply H; right; auto). lra.
Qed.
Lemma sum_of_map : forall A B (f : B -> Q) (g : A -> B) l, sum_of f (map g l) = sum_of (fun a => f (g a)) l.
Proof. intros. unfold sum_of. induction l; cbn; congruence. Qed.
Lemma total_sum : forall l, total l = sum_of (fun x => x) l.
Proof. reflexivity. Qed.
Lemma total_below : forall n l, len l = n -> total l == sum_below n (fun j => nth j l 0).
Proof.
  intros n l <-. unfold sum_below. induction l as [|x l IH]; [reflexivity|].
  assert (E : sum_of (fun j => nth j (x :: l) 0) (seq 0 (len (x :: l))) = x + sum_of (fun j => nth j l 0) (seq 0 (len l))).
  { cbn [List.length seq]. rewrite <- seq_shift. 
    change (x + sum_of (fun j => nth j (x :: l) 0) (map S (seq 0 (len l))) = x + sum_of (fun j => nth j l 0) (seq 0 (len l))).
    rewrite sum_of_map. reflexivity. }
  rewrite E. cbn [total fold_right]. change (fold_right Qplus 0 l) with (total l). rewrite IH. reflexivity.
Qed.

Lemma rows_fold : forall w r ms acc,
  shape r w acc -> Forall (fun m => len m = r /\ Forall (fun row => (len row <= w)%nat) m) ms ->
  shape r w (fold_left add_rows ms acc) /\
  forall i j, entry (fold_left add_rows ms acc) i j == entry acc i j + sum_of (fun m => entry m i j) ms.
Proof.
  intros w r ms. induction ms as [|m ms IH]; intros acc [L A] F.
  - split; [split; auto|]. intros. unfold sum_of. cbn [fold_left fold_right]. lra.
  - inversion F as [|? ? [Lm Fm] F']; subst. cbn [fold_left].
    assert (S' : shape (len acc) w (add_rows acc m)) by (split; [rewrite add_rows_len; auto|apply add_rows_width; auto]).
    destruct (IH (add_rows acc m) S' F') as [K1 K2]. split; auto. intros i j. rewrite K2.
    rewrite (add_rows_entry acc m i j w) by (auto; lia). unfold sum_of. cbn [fold_right]. lra.
Qed.
Lemma zeros_shape : forall r c, shape r c (repeat (repeat 0 c) r).
Proof. intros. split; [apply repeat_length|]. apply Forall_forall. intros x H. apply repeat_spec in H. subst. apply repeat_length. Qed.
Lemma zeros_entry : forall r c i j, entry (repeat (repeat 0 c) r) i j = 0.
Proof.
  intros. unfold entry. assert (Z1 : forall k n, nth k (repeat 0 n) 0 = 0) by (induction k; destruct n; cbn; auto).
  destruct (Nat.lt_ge_cases i r).
  - assert (E : nth i (repeat (repeat 0 c) r) [] = repeat 0 c).
    { apply (repeat_spec r (repeat 0 c)). apply nth_In. rewrite repeat_length. auto. }
    rewrite E. apply Z1.
  - rewrite (nth_overflow (repeat (repeat 0 c) r) []) by (rewrite repeat_length; auto). destruct j; reflexivity.
Qed.

Lemma fold_max_ge : forall l x, In x l -> (x <= fold_right Nat.max 0 l)%nat.
Proof. induction l as [|a l IH]; intros x []; cbn; [subst; lia|]. specialize (IH x H). lia. Qed.
Lemma fold_map_rows : forall (rolls : list mat) acc,
  fold_left (fun a r => add_rows a (m_rows r)) rolls acc = fold_left add_rows (map m_rows rolls) acc.
Proof. induction rolls as [|r rolls IH]; intros acc; cbn; auto. Qed.

Lemma piano_roll : forall rolls, Forall roll_ok rolls ->
  let p := get_piano_roll rolls in
  roll_ok p /\ m_cols p = fold_right Nat.max 0%nat (map m_cols rolls) /\
  forall i j, entry (m_rows p) i j == sum_of (fun r => entry (m_rows r) i j) rolls.
Proof.
  intros rolls F. unfold get_piano_roll.
  set (w := fold_right Nat.max 0%nat (map m_cols rolls)).
  assert (G : shape 128 w (fold_left (fun acc r => add_rows acc (m_rows r)) rolls (m_rows (zeros 128 w))) /\
    forall i j, entry (fold_left (fun acc r => add_rows acc (m_rows r)) rolls (m_rows (zeros 128 w))) i j == sum_of (fun r => entry (m_rows r) i j) rolls).
  { rewrite fold_map_rows. destruct (rows_fold w 128 (map m_rows rolls) (m_rows (zeros 128 w))) as [K1 K2].
    - apply zeros_shape.
    - apply Forall_forall. intros m H. apply in_map_iff in H. destruct H as [r [<- H]].
      rewrite Forall_forall in F. destruct (F r H) as [A B]. split; auto.
      eapply Forall_impl; [|exact B]. intros row E. cbn in E. rewrite E. apply fold_max_ge. apply in_map. auto.
    - split; auto. intros i j. rewrite K2. cbn [zeros m_rows]. rewrite zeros_entry, sum_of_map. lra. }
  destruct rolls as [|r rolls]; [|cbv zeta; split; [exact (proj1 G)|split; [reflexivity|exact (proj2 G)]]].
  cbv zeta. split; [exact (proj1 G)|]. split; [reflexivity|exact (proj2 G)].
Qed.

Lemma piano_roll_order : forall r1 r2, Forall roll_ok r1 -> Permutation r1 r2 ->
  m_cols (get_piano_roll r1) = m_cols (get_piano_roll r2) /\
  forall i j, entry (m_rows (get_piano_roll r1)) i j == entry (m_rows (get_piano_roll r2)) i j.
Proof.
  intros r1 r2 F P. assert (F2 : Forall roll_ok r2) by (eapply Permutation_Forall; eauto).
  destruct (piano_roll r1 F) as (_ & C1 & E1). destruct (piano_roll r2 F2) as (_ & C2 & E2). cbv zeta in *. split.
  - rewrite C1, C2. clear -P. induction P; cbn in *; lia.
  - intros i j. rewrite E1, E2. apply sum_of_perm; auto.
Qed.

(** Vectors *)
Lemma prefix_fold : forall n hs acc, len acc = n -> Forall (fun h => (len h <= n)%nat) hs ->
  len (fold_left add_prefix hs acc) = n /\
  forall j, nth j (fold_left add_prefix hs acc) 0 == nth j acc 0 + sum_of (fun h => nth j h 0) hs.
Proof.
  intros n hs. induction hs as [|h hs IH]; intros acc L F.
  - split; auto. intros; unfold sum_of; cbn [fold_left fold_right]; lra.
  - inversion F; subst. cbn [fold_left]. destruct (IH (add_prefix acc h)) as [K1 K2]; auto; [apply add_prefix_len|].
    split; auto. intros j. rewrite K2, add_prefix_nth by lia. unfold sum_of. cbn [fold_right]. lra.
Qed.
Lemma nth_zeros : forall j n, nth j (repeat 0 n) 0 = 0.
Proof. induction j; destruct n; cbn; auto. Qed.

Lemma div_zero : forall x d, x == 0 -> x / d == 0.
Proof. intros x d H. unfold Qdiv. rewrite H. lra. Qed.

Lemma histogram : forall hs, Forall (fun h => len h = 12%nat) hs ->
  let h := get_pitch_class_histogram hs false in let n := get_pitch_class_histogram hs true in
  len h = 12%nat /\ len n = 12%nat /\ (forall j, nth j h 0 == sum_of (fun x => nth j x 0) hs) /\
  (~ total h == 0 -> total n == 1 /\ forall j, nth j n 0 * total h == nth j h 0) /\
  (total h == 0 -> forall j, nth j n 0 == nth j h 0).
Proof.
  intros hs F. cbn [get_pitch_class_histogram]. unfold get_pitch_class_histogram.
  destruct (prefix_fold 12 hs (repeat 0 12)) as [K1 K2]; [apply repeat_length|eapply Forall_impl; [|exact F]; cbn; intros; lia|].
  set (h := fold_left add_prefix hs (repeat 0 12)) in *. cbv zeta.
  assert (N : forall j, nth j (normalise h) 0 == nth j h 0 / (total h + (if Qeq_bool (total h) 0 then 1 else 0))).
  { intros j. unfold normalise. cbv zeta. set (d := total h + _). clearbody d.
    destruct (Nat.lt_ge_cases j (len h)) as [L|L].
    - rewrite (nth_indep _ 0 (0 / d)) by (rewrite map_length; auto). rewrite (map_nth (fun x => x / d)). reflexivity.
    - rewrite !nth_overflow by (rewrite ?map_length; auto). symmetry. apply div_zero. lra. }
  split; auto. split; [unfold normalise; rewrite map_length; auto|]. split; [intros j; rewrite K2, nth_zeros; lra|]. split.
  - intros NZ. assert (E : Qeq_bool (total h) 0 = false) by (destruct (Qeq_bool (total h) 0) eqn:E; auto; apply Qeq_bool_iff in E; tauto).
    split.
    + unfold normalise. cbv zeta. rewrite E. rewrite total_sum, sum_of_map. unfold Qdiv. rewrite sum_of_scale, <- total_sum.
      assert (E2 : total h + 0 == total h) by lra. rewrite E2. apply Qmult_inv_r. auto.
    + intros j. rewrite N, E. assert (E2 : total h + 0 == total h) by lra. rewrite E2. unfold Qdiv. rewrite <- Qmult_assoc.
      rewrite (Qmult_comm (/ total h)), Qmult_inv_r by auto. lra.
  - intros Z0 j. rewrite N. apply Qeq_bool_iff in Z0 as Z1. rewrite Z1. rewrite Z0. unfold Qdiv. change (/ (0 + 1)) with 1. lra.
Qed.

(** Matrices *)
Lemma total_total : forall w r m, shape r w m -> total (map total m) == sum_below r (fun i => sum_below w (fun j => entry m i j)).
Proof.
  intros w r m [L F]. rewrite (total_below r) by (rewrite map_length; auto). unfold sum_below at 1. unfold sum_below at 1.
  apply sum_of_ext. intros i Hi. apply in_seq in Hi. rewrite (nth_indep _ 0 (total [])) by (rewrite map_length; lia).
  rewrite (map_nth total). unfold entry. apply total_below. rewrite Forall_forall in F. apply F. apply nth_In. lia.
Qed.
Lemma total_scale : forall d l, total (map (fun x => x / d) l) == total l / d.
Proof. intros. rewrite total_sum, sum_of_map. unfold Qdiv. rewrite sum_of_scale. reflexivity. Qed.
Lemma entry_map : forall d m i j, entry (map (map (fun x => x / d)) m) i j == entry m i j / d.
Proof.
  intros d m i j. unfold entry. destruct (Nat.lt_ge_cases i (len m)) as [L|L].
  - rewrite (nth_indep _ [] (map (fun x => x / d) [])) by (rewrite map_length; auto). rewrite (map_nth (map (fun x => x / d))).
    destruct (Nat.lt_ge_cases j (len (nth i m []))) as [K|K].
    + rewrite (nth_indep _ 0 (0 / d)) by (rewrite map_length; auto). rewrite (map_nth (fun x => x / d)). reflexivity.
    + rewrite !nth_overflow with (d := 0) by (rewrite ?map_length; auto). symmetry. apply div_zero. lra.
  - rewrite (nth_overflow (map (map (fun x => x / d)) m) []) by (rewrite map_length; auto). rewrite (nth_overflow m []) by auto.
    assert (E : nth j [] 0 = 0) by (destruct j; reflexivity). rewrite E. symmetry. apply div_zero. lra.
Qed.

Lemma transition : forall ms, Forall (shape 12 12) ms ->
  let m := get_pitch_class_transition_matrix ms false in let n := get_pitch_class_transition_matrix ms true in
  let all x := sum_below 12 (fun i => sum_below 12 (fun j => entry x i j)) in
  shape 12 12 m /\ shape 12 12 n /\ (forall i j, entry m i j == sum_of (fun x => entry x i j) ms) /\
  all m == sum_of all ms /\
  (~ all m == 0 -> all n == 1 /\ forall i j, entry n i j * all m == entry m i j) /\
  (all m == 0 -> forall i j, entry n i j == entry m i j).
Proof.
  intros ms F. unfold get_pitch_class_transition_matrix.
  destruct (rows_fold 12 12 ms (repeat (repeat 0 12) 12)) as [K1 K2]; [apply zeros_shape| |].
  { eapply Forall_impl; [|exact F]. intros m [A B]. split; auto. eapply Forall_impl; [|exact B]. cbn. intros; lia. }
  set (m := fold_left add_rows ms (repeat (repeat 0 12) 12)) in *. clearbody m. cbv zeta.
  set (all := fun x : list (list Q) => sum_below 12 (fun i => sum_below 12 (fun j => entry x i j))).
  assert (T : total (map total m) == all m) by (apply total_total; auto).
  set (d := total (map total m) + (if Qeq_bool (total (map total m)) 0 then 1 else 0)).
  assert (Sn : shape 12 12 (map (map (fun x => x / d)) m)).
  { destruct K1 as [A B]. split; [rewrite map_length; auto|]. apply Forall_forall. intros r H. apply in_map_iff in H.
    destruct H as [x [<- H]]. rewrite map_length. rewrite Forall_forall in B. apply B; auto. }
  assert (E0 : forall i j, entry m i j == sum_of (fun x => entry x i j) ms) by (intros; rewrite K2, zeros_entry; lra).
  split; auto. split; auto. split; auto. split.
  - unfold all, sum_below.
    etransitivity; [|symmetry; exact (sum_of_swap _ _ (fun x i => sum_of (fun j => entry x i j) (seq 0 12)) ms (seq 0 12))].
    apply sum_of_ext. intros i _. etransitivity; [|symmetry; exact (sum_of_swap _ _ (fun x j => entry x i j) ms (seq 0 12))].
    apply sum_of_ext. intros j _. apply E0.
  - assert (AN : all (map (map (fun x => x / d)) m) == all m / d).
    { unfold all, sum_below, Qdiv. rewrite <- sum_of_scale. apply sum_of_ext. intros i _. rewrite <- sum_of_scale. apply sum_of_ext. intros j _.
      apply (entry_map d). }
    split.
    + intros NZ. change (~ all m == 0) in NZ. assert (E : Qeq_bool (total (map total m)) 0 = false).
      { destruct (Qeq_bool (total (map total m)) 0) eqn:E; auto. apply Qeq_bool_iff in E. rewrite T in E. tauto. }
      assert (D : d == all m) by (unfold d; rewrite E, T; lra). split.
      * change (all (map (map (fun x => x / d)) m) == 1). rewrite AN, D. unfold Qdiv. apply Qmult_inv_r. auto.
      * intros i j. change (entry (map (map (fun x => x / d)) m) i j * all m == entry m i j). rewrite (entry_map d), D. unfold Qdiv. rewrite <- Qmult_assoc, (Qmult_comm (/ all m)), Qmult_inv_r by auto. lra.
    + intros Z0 i j. change (all m == 0) in Z0. assert (E : Qeq_bool (total (map total m)) 0 = true) by (apply Qeq_bool_iff; rewrite T; auto).
      rewrite (entry_map d). assert (D : d == 1) by (unfold d; rewrite E, T, Z0; lra). rewrite D. unfold Qdiv. change (/ 1) with 1. lra.
Qed.

Lemma transition_mean : forall ms, Forall (shape 12 12) ms -> ms <> [] ->
  Forall (fun x => sum_below 12 (fun i => sum_below 12 (fun j => entry x i j)) == 1) ms ->
  forall i j, entry (get_pitch_class_transition_matrix ms true) i j * inject_Z (Z.of_nat (len ms)) == sum_of (fun x => entry x i j) ms.
Proof.
  intros ms F NE N1 i j. destruct (transition ms F) as (_ & _ & E & A & B & _). cbv zeta in *.
  assert (C : sum_of (fun x => sum_below 12 (fun i => sum_below 12 (fun j => entry x i j))) ms == inject_Z (Z.of_nat (len ms))).
  { clear -N1. induction N1 as [|x ms H N IH]; [reflexivity|]. cbn [List.length]. rewrite Nat2Z.inj_succ, <- Z.add_1_l, inject_Z_plus.
    unfold sum_of in *. cbn [fold_right]. rewrite IH, H. reflexivity. }
  rewrite C in A. destruct B as [_ B].
  - rewrite A. intros K. apply (proj1 (inject_Z_injective (Z.of_nat (len ms)) 0)) in K. destruct ms; [congruence|]. cbn [List.length] in K. lia.
  - rewrite <- E, <- A. apply B.
Qed.

(** Chroma *)
Lemma succ_mod : forall i, (S i mod 12 = if (i mod 12 =? 11)%nat then 0 else S (i mod 12))%nat.
Proof.
  intros i. pose proof (Nat.div_mod i 12 ltac:(lia)) as D. pose proof (Nat.mod_upper_bound i 12 ltac:(lia)) as B.
  set (r := (i mod 12)%nat) in *. set (q := (i / 12)%nat) in *. clearbody r q. subst i.
  destruct (r =? 11)%nat eqn:E; [apply Nat.eqb_eq in E|apply Nat.eqb_neq in E].
  - symmetry. apply (Nat.mod_unique _ _ (S q)); lia.
  - symmetry. apply (Nat.mod_unique _ _ q); lia.
Qed.
Lemma sum_shift : forall n f, sum_below (S n) f == f O + sum_below n (fun i => f (S i)).
Proof. intros n f. unfold sum_below. cbn [seq]. rewrite <- seq_shift. unfold sum_of at 1. cbn [fold_right].
  change (f O + sum_of f (map S (seq 0 n)) == f O + sum_of (fun i => f (S i)) (seq 0 n)). rewrite sum_of_map. reflexivity.
Qed.
Lemma every12_sum : forall (f : list Q -> Q) l k, (k < 12)%nat ->
  sum_of f (every12 l k) == sum_below (len l) (fun i => if (i mod 12 =? k)%nat then f (nth i l []) else 0).
Proof.
  intros f l. induction l as [|x l IH]; intros k Hk; [reflexivity|].
  cbn [List.length]. rewrite sum_shift. cbn [every12 nth]. destruct k as [|k].
  - unfold sum_of at 1. cbn [fold_right]. change (fold_right (fun a s => f a + s) 0 (every12 l 11)) with (sum_of f (every12 l 11)).
    rewrite IH by lia. change (0 mod 12 =? 0)%nat with true. cbv iota.
    assert (E : sum_below (len l) (fun i => if (i mod 12 =? 11)%nat then f (nth i l []) else 0) ==
                sum_below (len l) (fun i => if (S i mod 12 =? 0)%nat then f (nth i l []) else 0)).
    { unfold sum_below. apply sum_of_ext. intros i _. rewrite succ_mod. destruct (i mod 12 =? 11)%nat eqn:A; reflexivity. }
    rewrite E. reflexivity.
  - rewrite IH by lia. change (0 mod 12 =? S k)%nat with false. cbv iota.
    assert (E : sum_below (len l) (fun i => if (i mod 12 =? k)%nat then f (nth i l []) else 0) ==
                sum_below (len l) (fun i => if (S i mod 12 =? S k)%nat then f (nth i l []) else 0)).
    { unfold sum_below. apply sum_of_ext. intros i _. rewrite succ_mod. destruct (i mod 12 =? 11)%nat eqn:A; [|reflexivity].
      apply Nat.eqb_eq in A. rewrite A. change (0 =? S k)%nat with false. destruct (11 =? k)%nat eqn:B; [apply Nat.eqb_eq in B; lia|reflexivity]. }
    rewrite E. lra.
Qed.
Lemma every12_in : forall A (l : list A) k x, In x (every12 l k) -> In x l.
Proof. induction l as [|y l IH]; intros k x H; cbn in H; [tauto|]. destruct k; [destruct H as [->|H]; [left; auto|]|]; right; eapply IH; eauto. Qed.

Lemma chroma : forall rolls, Forall roll_ok rolls ->
  let p := get_piano_roll rolls in let c := get_chroma rolls in
  m_cols c = m_cols p /\ shape 12 (m_cols p) (m_rows c) /\
  (forall k j, (k < 12)%nat -> entry (m_rows c) k j == sum_below 128 (fun i => if (i mod 12 =? k)%nat then entry (m_rows p) i j else 0)) /\
  (forall j, sum_below 12 (fun k => entry (m_rows c) k j) == sum_below 128 (fun i => entry (m_rows p) i j)).
Proof.
  intros rolls F. destruct (piano_roll rolls F) as (P1 & _ & _). cbv zeta in *. unfold get_chroma.
  set (p := get_piano_roll rolls) in *. clearbody p. destruct P1 as [L W]. cbn [m_cols m_rows].
  assert (R : forall k, len (column_sums (m_cols p) (every12 (m_rows p) k)) = m_cols p /\
     forall j, nth j (column_sums (m_cols p) (every12 (m_rows p) k)) 0 == sum_of (fun r => nth j r 0) (every12 (m_rows p) k)).
  { intros k. unfold column_sums. destruct (prefix_fold (m_cols p) (every12 (m_rows p) k) (repeat 0 (m_cols p))) as [A B]; [apply repeat_length| |].
    - apply Forall_forall. intros x H. apply every12_in in H. rewrite Forall_forall in W. rewrite (W x H). lia.
    - split; auto. intros j. rewrite B, nth_zeros. lra. }
  assert (EN : forall k j, (k < 12)%nat ->
     entry (map (fun note => column_sums (m_cols p) (every12 (m_rows p) note)) (seq 0 12)) k j == sum_below 128 (fun i => if (i mod 12 =? k)%nat then entry (m_rows p) i j else 0)).
  { intros k j Hk. unfold entry at 1. 
    assert (E : nth k (map (fun note => column_sums (m_cols p) (every12 (m_rows p) note)) (seq 0 12)) [] = column_sums (m_cols p) (every12 (m_rows p) k)).
    { rewrite (nth_indep _ [] (column_sums (m_cols p) (every12 (m_rows p) 0))) by (rewrite map_length, seq_length; auto).
      rewrite (map_nth (fun note => column_sums (m_cols p) (every12 (m_rows p) note))). rewrite seq_nth by auto. reflexivity. }
    rewrite E, (proj2 (R k) j). rewrite (every12_sum (fun r => nth j r 0)) by auto. rewrite L. reflexivity. }
  split; auto. split; [|split; auto].
  - split; [rewrite map_length, seq_length; auto|]. apply Forall_forall. intros x H. apply in_map_iff in H. destruct H as [k [<- _]]. apply R.
  - intros j. unfold sum_below at 1. 
    rewrite (sum_of_ext nat _ (fun k => sum_below 128 (fun i => if (i mod 12 =? k)%nat then entry (m_rows p) i j else 0))).
    2:{ intros k Hk. apply in_seq in Hk. apply EN. lia. }
    unfold sum_below.
    etransitivity; [exact (sum_of_swap nat nat (fun k i => if (i mod 12 =? k)%nat then entry (m_rows p) i j else 0) (seq 0 12) (seq 0 128))|].
    apply sum_of_ext. intros i _. assert (B : (i mod 12 < 12)%nat) by (apply Nat.mod_upper_bound; lia).
    set (q := (i mod 12)%nat) in *. clearbody q. set (v := entry (m_rows p) i j). clearbody v. cbn [seq]. unfold sum_of. cbn [fold_right].
    do 12 (destruct q as [|q]; [cbn [Nat.eqb]; lra|]). lia.
Qed.
