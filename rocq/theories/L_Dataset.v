From Coq Require Import QArith Qround Permutation Lia Lqa.
From Verif Require Import PyBase L_Base M_Note L_Note M_Events M_Seq S_Seq M_Chord L_Chord M_Graph S_Graph L_Graph L_Graph5 M_Experiments M_Dataset S_Dataset L_Transforms.
Open Scope Z_scope.

(* mapper *)
Definition m_ok (m : mapper) (hs : list Z) : Prop :=
  NoDup hs /\ m_next m = Z.of_nat (List.length hs) /\ map fst (m_h2i m) = hs /\
  (forall h i, dict_get Z.eqb h (m_h2i m) = Some i <-> 0 <= i /\ nth_error hs (Z.to_nat i) = Some h) /\
  (forall h i, dict_get Z.eqb i (m_i2h m) = Some h <-> 0 <= i /\ nth_error hs (Z.to_nat i) = Some h).
Lemma add_ok : forall m hs h, m_ok m hs -> m_ok (add_node_hash m h) (if in_dec Z.eq_dec h hs then hs else hs ++ [h]).
Proof.
  intros m hs h [N [L [K [A B]]]]. unfold add_node_hash. destruct (dict_get Z.eqb h (m_h2i m)) as [i|] eqn:E.
  - assert (I : In h hs). { apply A in E as [_ E]. eapply nth_error_In; eauto. } destruct (in_dec Z.eq_dec h hs); [|contradiction]. exact (conj N (conj L (conj K (conj A B)))).
  - assert (I : ~ In h hs). { apply (dict_get_None Z.eqb Z.eqb_spec) in E. rewrite <- K. exact E. } destruct (in_dec Z.eq_dec h hs); [contradiction|].
    assert (NE : forall i x, 0 <= i -> (nth_error (hs ++ [h]) (Z.to_nat i) = Some x <-> nth_error hs (Z.to_nat i) = Some x \/ (i = Z.of_nat (List.length hs) /\ x = h))).
    { intros i x P. destruct (lt_eq_lt_dec (Z.to_nat i) (List.length hs)) as [[Lt|Eq]|Gt].
      - rewrite nth_error_app1 by auto. split; [auto|intros [H|[H _]]; auto]. lia.
      - rewrite nth_error_app2 by lia. rewrite Eq, Nat.sub_diag. cbn. split; [intros H; injection H as <-; right; split; auto; lia|intros [H|[_ ->]]; auto].
        assert (nth_error hs (List.length hs) = None) by (apply nth_error_None; lia). congruence.
      - assert (nth_error (hs ++ [h]) (Z.to_nat i) = None) by (apply nth_error_None; rewrite app_length; cbn; lia). assert (nth_error hs (Z.to_nat i) = None) by (apply nth_error_None; lia).
        rewrite H, H0. split; [discriminate|intros [H1|[H1 _]]; [discriminate|lia]]. }
    assert (HI : forall i, nth_error hs i <> Some h) by (intros i X; apply I; eapply nth_error_In; eauto).
    split; [|split; [|split; [|split]]]; cbn [m_h2i m_i2h m_next].
    + apply (Permutation_NoDup (Permutation_cons_append hs h)). constructor; auto.
    + rewrite app_length. cbn. lia.
    + rewrite (dict_set_keys Z.eqb Z.eqb_spec), E. rewrite K. reflexivity.
    + intros x i. rewrite (dict_get_set Z.eqb Z.eqb_spec). destruct (Z.eqb_spec h x) as [<-|NX].
      * split.
        -- intros H. injection H as <-. split; [lia|]. apply NE; [lia|]. right. auto.
        -- intros [P H]. apply NE in H as [H|[-> _]]; auto; [destruct (HI _ H)|congruence].
      * rewrite A. split; intros [P H]; split; auto; apply NE in H || apply NE; auto. destruct H as [H|[_ H]]; auto. congruence.
    + intros x i. rewrite (dict_get_set Z.eqb Z.eqb_spec). destruct (Z.eqb_spec (m_next m) i) as [<-|NX].
      * split.
        -- intros H. injection H as <-. split; [lia|]. apply NE; [lia|]. right. auto.
        -- intros [P H]. apply NE in H as [H|[_ ->]]; auto. assert (nth_error hs (Z.to_nat (m_next m)) = None) by (apply nth_error_None; lia). congruence.
      * rewrite B. split; intros [P H]; split; auto; apply NE in H || apply NE; auto. destruct H as [H|[H _]]; auto. lia.
Qed.
Lemma add_first_seen : forall m l h, m_ok m (first_seen l) -> m_ok (add_node_hash m h) (first_seen (l ++ [h])).
Proof.
  intros m l h H. apply (add_ok _ _ h) in H. rewrite first_seen_snoc. destruct (in_dec Z.eq_dec h (first_seen l)) as [I|I], (in_dec Z.eq_dec h l) as [J|J]; auto; exfalso.
  - apply J. apply (proj1 (first_seen_In _ _)). exact I.
  - apply I. apply (proj2 (first_seen_In _ _)). exact J.
Qed.
Lemma fold_first_seen : forall hs m l, m_ok m (first_seen l) -> m_ok (fold_left add_node_hash hs m) (first_seen (l ++ hs)).
Proof.
  induction hs as [|h hs IH]; intros m l H; cbn [fold_left]; [rewrite app_nil_r; auto|]. replace (l ++ h :: hs) with ((l ++ [h]) ++ hs) by (rewrite <- app_assoc; reflexivity).
  apply IH. apply add_first_seen. exact H.
Qed.
Lemma first_seen_twice : forall l k, first_seen (l ++ first_seen k) = first_seen (l ++ k).
Proof.
  intros l k. induction k as [|h k IH] using rev_ind; auto. rewrite first_seen_snoc. rewrite app_assoc. rewrite (first_seen_snoc (l ++ k)). destruct (in_dec Z.eq_dec h k) as [I|I].
  - destruct (in_dec Z.eq_dec h (l ++ k)) as [J|J]; [exact IH|]. exfalso. apply J. apply in_or_app. auto.
  - rewrite app_assoc, first_seen_snoc. rewrite IH. destruct (in_dec Z.eq_dec h (l ++ first_seen k)) as [J|J], (in_dec Z.eq_dec h (l ++ k)) as [J'|J']; auto; exfalso.
    + apply J'. apply in_or_app. apply in_app_or in J as [J|J]; auto. right. apply (proj1 (first_seen_In _ _)). exact J.
    + apply J. apply in_or_app. apply in_app_or in J' as [J'|J']; auto. right. apply (proj2 (first_seen_In _ _)). exact J'.
Qed.
Lemma made_ok : forall m l, made m l -> m_ok m (first_seen l).
Proof.
  induction 1 as [|m l h _ IH|m l m' l' _ IH _ IH'].
  - repeat split; try constructor; cbn; try discriminate; intros [_ H]; destruct (Z.to_nat i); discriminate.
  - apply add_first_seen. exact IH.
  - unfold merge_with. destruct IH' as [_ [_ [K _]]]. rewrite K. rewrite <- first_seen_twice. apply fold_first_seen. exact IH.
Qed.
Lemma mapper_bijection : forall m l, made m l -> forall h i,
  (get_index m h = Ok i <-> 0 <= i /\ nth_error (first_seen l) (Z.to_nat i) = Some h) /\
  (get_node_hash m i = Ok h <-> 0 <= i /\ nth_error (first_seen l) (Z.to_nat i) = Some h).
Proof.
  intros m l H h i. destruct (made_ok m l H) as [_ [_ [_ [A B]]]]. unfold get_index, get_node_hash. split; [rewrite <- A|rewrite <- B].
  - destruct (dict_get Z.eqb h (m_h2i m)); split; intros E; try discriminate; injection E as <-; reflexivity.
  - destruct (dict_get Z.eqb i (m_i2h m)); split; intros E; try discriminate; injection E as <-; reflexivity.
Qed.
Lemma mapper_total : forall m l h, made m l -> ((exists i, get_index m h = Ok i) <-> In h l) /\ (~ In h l -> get_index m h = Err KeyError).
Proof.
  intros m l h H. assert (E : (exists i, get_index m h = Ok i) <-> In h l).
  { rewrite <- first_seen_In. split.
    - intros [i I]. apply (proj1 (proj1 (mapper_bijection m l H h i))) in I as [_ I]. eapply nth_error_In; eauto.
    - intros I. apply In_nth_error in I as [n I]. exists (Z.of_nat n). apply (mapper_bijection m l H). split; [lia|]. rewrite Nat2Z.id. exact I. }
  split; [exact E|]. intros N. unfold get_index in *. destruct (dict_get Z.eqb h (m_h2i m)) as [i|] eqn:D; auto. destruct N. apply E. eauto.
Qed.
Lemma first_seen_app : forall l k, exists r, first_seen (l ++ k) = first_seen l ++ r.
Proof.
  intros l k. induction k as [|h k [r IH]] using rev_ind; [exists []; rewrite !app_nil_r; auto|]. rewrite app_assoc, first_seen_snoc. destruct (in_dec _ _ _); [eauto|].
  rewrite IH, <- app_assoc. eauto.
Qed.
Lemma mapper_stable : forall m l m' l' h i, made m l -> made m' l' ->
  (get_index m h = Ok i -> forall x, get_index (add_node_hash m x) h = Ok i) /\ (get_index m h = Ok i -> get_index (merge_with m m') h = Ok i).
Proof.
  intros m l m' l' h i H H'. assert (G : forall m2 k, made m2 (l ++ k) -> get_index m h = Ok i -> get_index m2 h = Ok i).
  { intros m2 k M E. apply (mapper_bijection m l H) in E as [P E]. apply (mapper_bijection m2 _ M). split; auto. destruct (first_seen_app l k) as [r ->]. rewrite nth_error_app1; auto. apply nth_error_Some. congruence. }
  split; [intros E x; apply (G _ [x]); auto; constructor; auto|apply (G _ l'); constructor; auto].
Qed.

(* masks *)
Lemma upd_len : forall m i, List.length (upd_true m i) = List.length m.
Proof.
  intros m i. unfold upd_true. rewrite !app_length, firstn_length, skipn_length. destruct (Nat.ltb_spec i (List.length m)); cbn [List.length]; lia.
Qed.
Lemma upd_nth : forall m i j, nth_error (upd_true m i) j = if Nat.eqb i j then (if Nat.ltb i (List.length m) then Some true else None) else nth_error m j.
Proof.
  intros m i. revert m. induction i as [|i IH]; intros m j; destruct m as [|b m]; cbn.
  - destruct j; reflexivity.
  - destruct j; reflexivity.
  - destruct (Nat.eqb i j); destruct j; try reflexivity; destruct (Nat.eqb _ _); reflexivity.
  - destruct j as [|j]; auto. unfold upd_true in *. cbn. specialize (IH m j). unfold Nat.ltb in *. cbn [List.length Nat.leb] in *. cbn [Nat.leb]. rewrite <- IH. reflexivity.
Qed.
Lemma fold_upd : forall idx m j, nth_error (fold_left upd_true idx m) j = if existsb (Nat.eqb j) idx && Nat.ltb j (List.length m) then Some true else nth_error m j.
Proof.
  induction idx as [|i idx IH]; intros m j; cbn [fold_left existsb]; auto. rewrite IH, upd_len, upd_nth, (Nat.eqb_sym i j). destruct (Nat.eqb_spec j i) as [->|N]; cbn [orb]; auto.
  destruct (existsb _ idx); cbn [andb]; destruct (Nat.ltb_spec i (List.length m)); auto; symmetry; apply nth_error_None; lia.
Qed.
Lemma set_true_marked : forall n idx j, marked (set_true n idx) j <-> (j < n)%nat /\ In j idx.
Proof.
  intros n idx j. unfold marked, set_true. rewrite fold_upd, repeat_length. assert (R : nth_error (repeat false n) j <> Some true). { intros E. apply nth_error_In in E. apply repeat_spec in E. discriminate. }
  destruct (existsb (Nat.eqb j) idx) eqn:X; cbn [andb].
  - apply existsb_exists in X as [y [Y E]]. apply Nat.eqb_eq in E. subst y. destruct (Nat.ltb_spec j n); split; auto; try tauto. intros [L _]. lia.
  - split; [intros H; contradiction|]. intros [L I]. exfalso. assert (existsb (Nat.eqb j) idx = true) by (apply existsb_exists; exists j; split; auto; apply Nat.eqb_refl). congruence.
Qed.
Lemma set_true_len : forall n idx, List.length (set_true n idx) = n.
Proof. intros n idx. unfold set_true. rewrite <- (repeat_length false n) at 2. generalize (repeat false n). induction idx as [|i idx IH]; intros m; cbn; auto. rewrite IH. apply upd_len. Qed.
Lemma how_many_filter : forall m k, how_many m = List.length (filter (fun j => nth (j - k) m false) (List.seq k (List.length m))).
Proof.
  induction m as [|b m IH]; intros k; cbn; auto. rewrite Nat.sub_diag. assert (E : filter (fun j => nth (j - k) (b :: m) false) (List.seq (S k) (List.length m)) = filter (fun j => nth (j - S k) m false) (List.seq (S k) (List.length m))).
  { apply filter_ext_in. intros j I. apply in_seq in I. replace (j - k)%nat with (S (j - S k)) by lia. reflexivity. }
  cbn in E. destruct b; cbn [List.length]; unfold how_many in *; cbn [count_occ]; destruct (Bool.bool_dec _ _); try congruence; rewrite E, <- IH; reflexivity.
Qed.
Lemma set_true_count : forall n idx, NoDup idx -> (forall j, In j idx -> (j < n)%nat) -> how_many (set_true n idx) = List.length idx.
Proof.
  intros n idx N R. rewrite (how_many_filter _ 0), set_true_len. apply Permutation_length. apply NoDup_Permutation; auto; [apply NoDup_filter; apply seq_NoDup|].
  intros j. rewrite filter_In, in_seq, Nat.sub_0_r. assert (M : nth j (set_true n idx) false = true <-> marked (set_true n idx) j).
  { unfold marked. split; intros H.
    - destruct (nth_error (set_true n idx) j) as [b|] eqn:E; [rewrite (nth_error_nth _ _ _ E) in H; congruence|]. apply nth_error_None in E. rewrite nth_overflow in H by auto. discriminate.
    - apply nth_error_nth. exact H. }
  rewrite M, set_true_marked. split; [tauto|]. intros I. specialize (R j I). repeat split; auto; lia.
Qed.
Lemma perm_NoDup : forall n idx, Permutation (List.seq 0 n) idx -> NoDup idx /\ (forall j, In j idx <-> (j < n)%nat) /\ List.length idx = n.
Proof.
  intros n idx P. split; [eapply Permutation_NoDup; eauto; apply seq_NoDup|]. split.
  - intros j. split; intros H; [apply (Permutation_in _ (Permutation_sym P)) in H; apply in_seq in H; lia|apply (Permutation_in _ P); apply in_seq; lia].
  - rewrite <- (Permutation_length P), seq_length. reflexivity.
Qed.
Lemma in_three : forall A (l : list A) a b x, In x l <-> In x (firstn a l) \/ In x (skipn a (firstn (a + b) l)) \/ In x (skipn (a + b) l).
Proof.
  intros A l a b x. rewrite <- (firstn_skipn (a + b) l) at 1. rewrite in_app_iff. rewrite <- (firstn_skipn a (firstn (a + b) l)) at 1. rewrite firstn_firstn, Nat.min_l by lia. rewrite in_app_iff. tauto.
Qed.
Lemma nodup_split : forall A (l1 l2 : list A), NoDup (l1 ++ l2) -> NoDup l1 /\ NoDup l2 /\ forall x, In x l1 -> ~ In x l2.
Proof.
  induction l1 as [|a l1 IH]; intros l2 N; cbn in *; [repeat split; auto; constructor|]. inversion N as [|? ? NI N']; subst. apply IH in N' as [A1 [A2 A3]]. repeat split; auto.
  - constructor; auto. intros I. apply NI. apply in_or_app. auto.
  - intros x [<-|I] J; [apply NI; apply in_or_app; auto|eapply A3; eauto].
Qed.
Lemma masks_partition : forall n a b idx, Permutation (List.seq 0 n) idx -> let m := masks_of n a b idx in
  List.length (k_train m) = n /\ List.length (k_val m) = n /\ List.length (k_test m) = n /\
  (forall j, (j < n)%nat -> exactly_one (marked (k_train m) j) (marked (k_val m) j) (marked (k_test m) j)) /\
  ((a + b <= n)%nat -> how_many (k_train m) = a /\ how_many (k_val m) = b /\ how_many (k_test m) = (n - a - b)%nat).
Proof.
  intros n a b idx P m. destruct (perm_NoDup n idx P) as [N [R L]]. unfold m, masks_of. cbn [k_train k_val k_test]. rewrite !set_true_len. split; [auto|]. split; [auto|]. split; [auto|].
  pose proof (firstn_skipn (a + b) idx) as E1. pose proof (firstn_skipn a (firstn (a + b) idx)) as E2. rewrite firstn_firstn, Nat.min_l in E2 by lia.
  rewrite <- E1 in N. apply nodup_split in N as [N1 [N2 N3]]. rewrite <- E2 in N1. apply nodup_split in N1 as [M1 [M2 M3]].
  assert (IN1 : forall x, In x (firstn a idx) -> In x (firstn (a + b) idx)) by (intros x I; rewrite <- E2; apply in_or_app; auto).
  assert (IN2 : forall x, In x (skipn a (firstn (a + b) idx)) -> In x (firstn (a + b) idx)) by (intros x I; rewrite <- E2; apply in_or_app; auto).
  split.
  - intros j J. unfold exactly_one. rewrite !set_true_marked. assert (I : In j idx) by (apply R; auto). apply (in_three _ idx a b) in I.
    pose proof (M3 j) as X1. pose proof (N3 j) as X2. pose proof (IN1 j) as X3. pose proof (IN2 j) as X4. destruct I as [I|[I|I]]; [left|right; left|right; right]; tauto.
  - intros LE. rewrite !set_true_count; auto.
    + rewrite firstn_length, !skipn_length, firstn_length. lia.
    + intros j I. apply R. apply (in_three _ idx a b). auto.
    + intros j I. apply R. apply (in_three _ idx a b). auto.
    + intros j I. apply R. apply (in_three _ idx a b). auto.
Qed.
Lemma part_floor : forall r n, (0 <= r)%Q -> Z.of_nat (part_size r n) = Qfloor (r * inject_Z (Z.of_nat n)).
Proof.
  intros r n R. unfold part_size. assert (P : (0 <= r * inject_Z (Z.of_nat n))%Q) by (apply Qmult_le_0_compat; auto; rewrite <- (Zle_Qle 0); lia).
  rewrite trunc_floor by auto. rewrite Z2Nat.id; auto. apply (Qfloor_resp_le 0 _) in P. exact P.
Qed.
Lemma part_sum : forall a b n, (0 <= a)%Q -> (0 <= b)%Q -> (a + b <= 1)%Q -> (part_size a n + part_size b n <= n)%nat.
Proof.
  intros a b n A B S1. pose proof (part_floor a n A) as E1. pose proof (part_floor b n B) as E2. pose proof (Qfloor_le (a * inject_Z (Z.of_nat n))) as F1. pose proof (Qfloor_le (b * inject_Z (Z.of_nat n))) as F2.
  rewrite <- E1 in F1. rewrite <- E2 in F2. assert (Q0 : (0 <= inject_Z (Z.of_nat n))%Q) by (rewrite <- (Zle_Qle 0); lia).
  assert (H : (inject_Z (Z.of_nat (part_size a n)) + inject_Z (Z.of_nat (part_size b n)) <= inject_Z (Z.of_nat n))%Q).
  { set (x := inject_Z (Z.of_nat n)) in *. clearbody x. set (u := inject_Z (Z.of_nat (part_size a n))) in *. set (v := inject_Z (Z.of_nat (part_size b n))) in *. clearbody u v. nra. }
  rewrite <- inject_Z_plus, <- Zle_Qle in H. lia.
Qed.
Lemma check_iff : forall t v size b, check_args t v size b = Ok tt <->
  (0 <= t)%Q /\ (0 <= v)%Q /\ (t + v <= 1)%Q /\ (forall k, size = Some k -> 1 <= k <= 128) /\ (forall k, b = Some k -> 1 <= k).
Proof.
  intros t v size b. unfold check_args. split.
  - intros H. destruct (Qle_bool 0 t && Qle_bool t 1) eqn:A; [|discriminate]. cbn [negb] in H. destruct (Qle_bool 0 v && Qle_bool v 1) eqn:B; [|discriminate]. cbn [negb] in H.
    apply andb_true_iff in A as [A1 A2]. apply andb_true_iff in B as [B1 B2]. rewrite Qle_bool_iff in *. destruct (Qltb 1 (t + v)) eqn:C; [discriminate|]. apply Qltb_ge in C.
    split; [auto|]. split; [auto|]. split; [auto|]. split.
    + intros k ->. destruct (Z.ltb_spec k 1); [discriminate|]. destruct (Z.ltb_spec 128 k); [discriminate|]. lia.
    + intros k ->. destruct (match size with Some _ => _ | None => _ end); [discriminate|]. destruct (Z.ltb_spec k 1); [discriminate|]. lia.
  - intros [A [B [C [D E]]]].
    assert (X1 : Qle_bool 0 t = true) by (apply Qle_bool_iff; auto). assert (X2 : Qle_bool 0 v = true) by (apply Qle_bool_iff; auto).
    assert (X3 : Qle_bool t 1 = true) by (apply Qle_bool_iff; lra). assert (X4 : Qle_bool v 1 = true) by (apply Qle_bool_iff; lra). rewrite X1, X2, X3, X4. cbn [andb negb].
    destruct (Qltb 1 (t + v)) eqn:Y; [apply Qltb_lt in Y; lra|]. destruct size as [k|].
    + specialize (D k eq_refl). destruct (Z.ltb_spec k 1); [lia|]. destruct (Z.ltb_spec 128 k); [lia|]. cbn [orb]. destruct b as [j|]; auto. specialize (E j eq_refl). destruct (Z.ltb_spec j 1); [lia|auto].
    + destruct b as [j|]; auto. specialize (E j eq_refl). destruct (Z.ltb_spec j 1); [lia|auto].
Qed.
Lemma split_ok : forall t v n idx, (0 <= t)%Q -> (0 <= v)%Q -> (t + v <= 1)%Q -> Permutation (List.seq 0 n) idx ->
  let m := split_masks t v n idx in
  List.length (k_train m) = n /\ List.length (k_val m) = n /\ List.length (k_test m) = n /\
  (forall j, (j < n)%nat -> exactly_one (marked (k_train m) j) (marked (k_val m) j) (marked (k_test m) j)) /\
  Z.of_nat (how_many (k_train m)) = Qfloor (t * inject_Z (Z.of_nat n)) /\
  Z.of_nat (how_many (k_val m)) = Qfloor (v * inject_Z (Z.of_nat n)) /\
  (how_many (k_train m) + how_many (k_val m) + how_many (k_test m) = n)%nat.
Proof.
  intros t v n idx T V S1 P m. pose proof (part_sum t v n T V S1) as LE. destruct (masks_partition n (part_size t n) (part_size v n) idx P) as [L1 [L2 [L3 [X C]]]]. destruct (C LE) as [C1 [C2 C3]].
  unfold m, split_masks. split; [auto|]. split; [auto|]. split; [auto|]. split; [auto|]. rewrite C1, C2, C3. split; [apply part_floor; auto|]. split; [apply part_floor; auto|lia].
Qed.
