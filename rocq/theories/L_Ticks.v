From Coq Require Import Lia Lqa Sorted Qround Qfield.
From Verif Require Import PyBase L_Base M_Note L_Note L_Note2 M_Ticks S_Ticks.
Open Scope Z_scope.

(** ** sums *)
Lemma fold_plus_app : forall l x, (fold_right Qplus 0 (l ++ [x]) == fold_right Qplus 0 l + x)%Q.
Proof. induction l as [|y l IH]; intros x; simpl; [ring|rewrite IH; ring]. Qed.
Lemma sum_to_succ : forall f k, 0 <= k -> (sum_to f (k + 1) == sum_to f k + f k)%Q.
Proof.
  intros f k Hk. unfold sum_to. replace (Z.to_nat (k + 1)) with (S (Z.to_nat k)) by lia.
  rewrite seq_S, map_app. simpl map at 2. rewrite fold_plus_app. simpl. rewrite Z2Nat.id by lia. reflexivity.
Qed.
Lemma sum_to_0 : forall f, sum_to f 0 = 0%Q.
Proof. reflexivity. Qed.
Lemma inject_Z_succ : forall k, (inject_Z (k + 1) == inject_Z k + 1)%Q.
Proof. intro k. rewrite inject_Z_plus. reflexivity. Qed.
Lemma sum_to_linear : forall f s c n, 0 <= s -> (forall j, s <= j < s + Z.of_nat n -> (f j == c)%Q) ->
  (sum_to f (s + Z.of_nat n) == sum_to f s + c * inject_Z (Z.of_nat n))%Q.
Proof.
  induction n as [|n IH]; intros Hs Hf.
  - rewrite Z.add_0_r. change (inject_Z (Z.of_nat 0)) with 0%Q. ring.
  - rewrite Nat2Z.inj_succ. replace (s + Z.succ (Z.of_nat n)) with (s + Z.of_nat n + 1) by lia.
    rewrite sum_to_succ by lia. rewrite IH by (auto; intros; apply Hf; lia). rewrite Hf by lia.
    replace (Z.succ (Z.of_nat n)) with (Z.of_nat n + 1) by lia. rewrite inject_Z_succ. ring.
Qed.
Lemma sum_to_seg : forall f s k c, 0 <= s <= k -> (forall j, s <= j < k -> (f j == c)%Q) ->
  (sum_to f k == sum_to f s + c * inject_Z (k - s))%Q.
Proof.
  intros f s k c H Hf. replace k with (s + Z.of_nat (Z.to_nat (k - s))) at 1 by lia.
  rewrite (sum_to_linear f s c) by (try lia; intros; apply Hf; lia). rewrite Z2Nat.id by lia. reflexivity.
Qed.
Lemma sum_to_ext : forall f g k, (forall j, 0 <= j < k -> (f j == g j)%Q) -> (sum_to f k == sum_to g k)%Q.
Proof.
  intros f g k. destruct (Z_lt_le_dec k 0) as [L|L]; [unfold sum_to; replace (Z.to_nat k) with 0%nat by lia; reflexivity|].
  revert k L. apply (natlike_ind (fun k => (forall j, 0 <= j < k -> (f j == g j)%Q) -> (sum_to f k == sum_to g k)%Q)).
  - intros _. reflexivity.
  - intros x Hx IH H. replace (Z.succ x) with (x + 1) by lia. rewrite !sum_to_succ by lia. rewrite IH by (intros; apply H; lia).
    rewrite H by lia. reflexivity.
Qed.
Lemma sum_to_mono : forall f j k, (forall i, 0 <= i -> (0 < f i)%Q) -> 0 <= j < k -> (sum_to f j < sum_to f k)%Q.
Proof.
  intros f j k Hf H. assert (forall n, (sum_to f j < sum_to f (j + 1 + Z.of_nat n))%Q).
  { induction n as [|n IH].
    - rewrite Z.add_0_r, sum_to_succ by lia. pose proof (Hf j ltac:(lia)). lra.
    - rewrite Nat2Z.inj_succ. replace (j + 1 + Z.succ (Z.of_nat n)) with (j + 1 + Z.of_nat n + 1) by lia.
      rewrite sum_to_succ by lia. pose proof (Hf (j + 1 + Z.of_nat n) ltac:(lia)). lra. }
  specialize (H0 (Z.to_nat (k - j - 1))). replace (j + 1 + Z.of_nat (Z.to_nat (k - j - 1))) with k in H0 by lia. exact H0.
Qed.

(** ** tempo maps *)
Definition msorted {A} (m : list (Z * A)) : Prop := StronglySorted (fun a b => fst a <= fst b) m.
Definition vmap (m : list (Z * Q)) : Prop :=
  (exists s r, m = (0, s) :: r) /\ msorted m /\ (forall e, In e m -> (0 < snd e)%Q).

Lemma at_tick_app : forall A (l1 l2 : list (Z * A)) j d, at_tick (l1 ++ l2) j d = at_tick l2 j (at_tick l1 j d).
Proof. intros. unfold at_tick. apply fold_left_app. Qed.
Lemma at_tick_after : forall A (l : list (Z * A)) j d, (forall e, In e l -> j < fst e) -> at_tick l j d = d.
Proof.
  induction l as [|[t x] l IH]; intros j d H; [reflexivity|]. unfold at_tick; simpl.
  pose proof (H _ (or_introl eq_refl)) as H0; simpl in H0. destruct (Z.leb_spec t j); [lia|]. apply IH. intros e He; apply H; right; auto.
Qed.
Lemma at_tick_seg : forall A (pre : list (Z * A)) s x r j d, s <= j -> (forall e, In e r -> j < fst e) ->
  at_tick (pre ++ (s, x) :: r) j d = x.
Proof.
  intros. rewrite at_tick_app. change ((s, x) :: r) with ([(s, x)] ++ r). rewrite at_tick_app.
  rewrite (at_tick_after _ r) by auto. unfold at_tick; simpl. destruct (Z.leb_spec s j); [reflexivity|lia].
Qed.
Lemma at_tick_In : forall A (l : list (Z * A)) j d, at_tick l j d = d \/ exists e, In e l /\ at_tick l j d = snd e.
Proof.
  induction l as [|[t x] l IH]; intros j d; [left; reflexivity|]. unfold at_tick; simpl. fold (@at_tick A).
  change (fold_left (fun (v : A) (e : Z * A) => if fst e <=? j then snd e else v) l (if t <=? j then x else d))
    with (at_tick l j (if t <=? j then x else d)).
  destruct (IH j (if t <=? j then x else d)) as [H|[e [H1 H2]]].
  - rewrite H. destruct (t <=? j); [right; exists (t, x); split; [left|]; reflexivity|left; reflexivity].
  - right. exists e. split; [right; auto|auto].
Qed.
Lemma at_tick_pos : forall m j, vmap m -> 0 <= j -> (0 < at_tick m j 0)%Q.
Proof.
  intros m j [[s [r ->]] [_ P]] Hj. change ((0, s) :: r) with ([(0, s)] ++ r). rewrite at_tick_app.
  unfold at_tick at 2; simpl. destruct (Z.leb_spec 0 j); [|lia].
  destruct (at_tick_In _ r j s) as [H1|[e [H1 H2]]]; [rewrite H1; apply (P (0, s)); left; auto|rewrite H2; apply P; right; auto].
Qed.

(** ** arrays *)
Lemma arange_len : forall n, List.length (arange n) = Z.to_nat n.
Proof. intros. unfold arange. rewrite map_length, seq_length. reflexivity. Qed.
Lemma nth_error_arange : forall n k, (k < Z.to_nat n)%nat -> nth_error (arange n) k = Some (inject_Z (Z.of_nat k)).
Proof.
  intros. unfold arange. rewrite nth_error_map. rewrite (nth_error_nth' _ 0%nat) by (rewrite seq_length; auto).
  rewrite seq_nth by auto. reflexivity.
Qed.
Lemma nth_error_firstn_lt : forall A (l : list A) n k, (k < n)%nat -> nth_error (firstn n l) k = nth_error l k.
Proof.
  induction l as [|x l IH]; intros n k H; [rewrite firstn_nil; reflexivity|].
  destruct n; [lia|]. destruct k; [reflexivity|]. simpl. apply IH. lia.
Qed.
Lemma nth_error_skipn' : forall A n (l : list A) k, nth_error (skipn n l) k = nth_error l (n + k).
Proof.
  induction n as [|n IH]; intros l k; [reflexivity|]. destruct l as [|x l]; [destruct k; reflexivity|]. simpl. apply IH.
Qed.
Lemma slice_set_ok : forall a s e v, 0 <= s -> s <= e -> e <= Z.of_nat (List.length a) -> List.length v = Z.to_nat (e - s) ->
  exists a', slice_set a s e v = Ok a' /\ List.length a' = List.length a /\
    (forall k, (k < Z.to_nat s)%nat -> nth_error a' k = nth_error a k) /\
    (forall k, (k < Z.to_nat (e - s))%nat -> nth_error a' (Z.to_nat s + k) = nth_error v k) /\
    (forall k, (Z.to_nat e <= k)%nat -> nth_error a' k = nth_error a k).
Proof.
  intros a s e v H0 H1 H2 H3. unfold slice_set.
  replace (Nat.min (Z.to_nat s) (List.length a)) with (Z.to_nat s) by lia.
  replace (Nat.min (Z.to_nat e) (List.length a)) with (Z.to_nat e) by lia.
  replace (Z.to_nat e - Z.to_nat s)%nat with (Z.to_nat (e - s)) by lia.
  rewrite H3, Nat.eqb_refl. eexists; split; [reflexivity|].
  assert (F : List.length (firstn (Z.to_nat s) a) = Z.to_nat s) by (rewrite firstn_length; lia).
  split; [rewrite !app_length, F, skipn_length, H3; lia|].
  split; [|split].
  - intros k Hk. rewrite nth_error_app1 by lia. rewrite nth_error_firstn_lt by auto. reflexivity.
  - intros k Hk. rewrite nth_error_app2 by lia. rewrite F. replace (Z.to_nat s + k - Z.to_nat s)%nat with k by lia.
    rewrite nth_error_app1 by lia. reflexivity.
  - intros k Hk. rewrite nth_error_app2 by lia. rewrite F, nth_error_app2 by lia. rewrite H3.
    rewrite nth_error_skipn'. f_equal. lia.
Qed.

Definition tf (m : list (Z * Q)) (j : Z) : Q := at_tick m j 0%Q.
Definition T (m : list (Z * Q)) (k : Z) : Q := sum_to (tf m) k.
Definition goodto (m : list (Z * Q)) (a : list Q) (n : Z) : Prop :=
  forall k, 0 <= k <= n -> exists q, nth_error a (Z.to_nat k) = Some q /\ (q == T m k)%Q.

Lemma msorted_app : forall A (l1 l2 : list (Z * A)), msorted (l1 ++ l2) ->
  msorted l2 /\ (forall a b, In a l1 -> In b l2 -> fst a <= fst b).
Proof.
  induction l1 as [|x l1 IH]; intros l2 H; [split; [auto|intros a b []]|].
  simpl in H. apply StronglySorted_inv in H as [H1 H2]. destruct (IH _ H1) as [I1 I2].
  split; auto. intros a b [<-|Ha] Hb; [|auto]. rewrite Forall_forall in H2. apply H2. apply in_or_app; auto.
Qed.

Lemma fill_ok : forall m pre s sc r e a le n,
  m = pre ++ (s, sc) :: r -> 0 <= s <= e -> e < Z.of_nat (List.length a) -> n = e - s + 1 ->
  (forall x, In x r -> e <= fst x) -> (le == T m s)%Q -> goodto m a s ->
  exists a', slice_set a s (e + 1) (map (fun k => le + sc * k)%Q (arange n)) = Ok a' /\
    List.length a' = List.length a /\ goodto m a' e.
Proof.
  intros m pre s sc r e a le n Em Hse Hea Hn Hr Hle Hg.
  destruct (slice_set_ok a s (e + 1) (map (fun k => le + sc * k)%Q (arange n))) as [a' [E [L [P1 [P2 P3]]]]];
    try lia; [rewrite map_length, arange_len; lia|].
  exists a'. split; auto. split; auto. intros k Hk.
  destruct (Z_lt_le_dec k s) as [Hks|Hks].
  - destruct (Hg k ltac:(lia)) as [q [Q1 Q2]]. exists q. split; auto. rewrite P1 by lia. auto.
  - exists (le + sc * inject_Z (k - s))%Q. split.
    + replace (Z.to_nat k) with (Z.to_nat s + Z.to_nat (k - s))%nat by lia. rewrite P2 by lia.
      rewrite nth_error_map, nth_error_arange by lia. simpl. rewrite Z2Nat.id by lia. reflexivity.
    + unfold T in *. rewrite (sum_to_seg (tf m) s k sc); [rewrite Hle; reflexivity|lia|].
      intros j Hj. unfold tf. rewrite Em, at_tick_seg; [reflexivity|lia|]. intros x Hx. specialize (Hr x Hx). lia.
Qed.

Lemma py_nth_ok : forall A (a : list A) k x, 0 <= k -> nth_error a (Z.to_nat k) = Some x -> py_nth a k = Ok x.
Proof.
  intros A a k x H E. unfold py_nth. destruct (Z.ltb_spec k 0); [lia|]. destruct (Z.ltb_spec k 0); [lia|]. rewrite E. reflexivity.
Qed.

Lemma upd_loop_ok : forall m l pre s sc a le, m = pre ++ (s, sc) :: l -> msorted m -> (forall x, In x m -> 0 <= fst x < Z.of_nat (List.length a)) ->
  (le == T m s)%Q -> goodto m a s ->
  exists a' le' s' sc' pre', upd_loop a le ((s, sc) :: l) = Ok (a', le') /\ m = pre' ++ [(s', sc')] /\
    List.length a' = List.length a /\ (le' == T m s')%Q /\ goodto m a' s'.
Proof.
  intros m l. induction l as [|[e sc2] l IH]; intros pre s sc a le Em Hs Hb Hle Hg.
  - exists a, le, s, sc, pre. repeat split; auto.
  - assert (Hs' := Hs). rewrite Em in Hs'. apply msorted_app in Hs' as [Hs' _]. apply StronglySorted_inv in Hs' as [Hs1 Hs2].
    rewrite Forall_forall in Hs2. apply StronglySorted_inv in Hs1 as [Hs3 Hs4]. rewrite Forall_forall in Hs4.
    assert (0 <= s < Z.of_nat (List.length a)) by (apply (Hb (s, sc)); rewrite Em; apply in_or_app; right; left; auto).
    assert (0 <= e < Z.of_nat (List.length a)) by (apply (Hb (e, sc2)); rewrite Em; apply in_or_app; right; right; left; auto).
    assert (s <= e) by (apply (Hs2 (e, sc2)); left; auto).
    destruct (fill_ok m pre s sc ((e, sc2) :: l) e a le (e - s + 1)) as [a' [E [L G]]]; auto; try lia.
    { intros x [<-|Hx]; simpl; [lia|]. apply (Hs4 x Hx). }
    change (upd_loop a le ((s, sc) :: (e, sc2) :: l)) with
      (bind (slice_set a s (e + 1) (map (fun k => le + sc * k)%Q (arange (e - s + 1)))) (fun a' =>
       bind (py_nth a' e) (fun t => upd_loop a' t ((e, sc2) :: l)))).
    rewrite E. cbn [bind]. destruct (G e ltac:(lia)) as [t [Et Tt]]. rewrite (py_nth_ok _ a' e t) by (auto; lia). cbn [bind].
    destruct (IH (pre ++ [(s, sc)]) e sc2 a' t) as [a2 [le2 [s2 [sc' [pre2 [E2 [E3 [L2 [T2 G2]]]]]]]]]; auto.
    { rewrite <- app_assoc. auto. }
    { rewrite L. auto. }
    exists a2, le2, s2, sc', pre2. repeat split; auto. congruence.
Qed.

Definition last_tick (m : list (Z * Q)) : Z := fold_right Z.max 0 (map fst m).
Lemma last_tick_ge : forall m x, In x m -> fst x <= last_tick m.
Proof. induction m as [|y m IH]; intros x []; unfold last_tick; simpl; fold (last_tick m); [subst; lia|]. specialize (IH x H). lia. Qed.
Lemma last_tick_snoc : forall m s sc, msorted (m ++ [(s, sc)]) -> 0 <= s -> last_tick (m ++ [(s, sc)]) = s.
Proof.
  induction m as [|y m IH]; intros s sc H Hs; unfold last_tick; simpl; [lia|].
  fold (last_tick (m ++ [(s, sc)])). simpl in H. apply StronglySorted_inv in H as [H1 H2]. rewrite IH by auto.
  rewrite Forall_forall in H2. specialize (H2 (s, sc)). simpl in H2. rewrite in_app_iff in H2. specialize (H2 (or_intror (or_introl eq_refl))). lia.
Qed.
Lemma vmap_nonneg : forall m x, vmap m -> In x m -> 0 <= fst x.
Proof.
  intros m x [[s [r ->]] [H _]] Hx. apply StronglySorted_inv in H as [_ H]. rewrite Forall_forall in H.
  destruct Hx as [<-|Hx]; simpl; [lia|]. apply (H x Hx).
Qed.
Lemma vmap_last : forall m, vmap m -> exists pre s sc, m = pre ++ [(s, sc)] /\ last_tick m = s /\ 0 <= s /\ (0 < sc)%Q.
Proof.
  intros m V. assert (V' := V). destruct V' as [[s [r E]] [H P]].
  destruct (exists_last (l := m)) as [pre [[s' sc'] E']]; [rewrite E; discriminate|].
  assert (In (s', sc') m) by (rewrite E'; apply in_or_app; right; left; auto).
  exists pre, s', sc'. split; auto. assert (0 <= s') by (apply (vmap_nonneg m (s', sc') V); auto).
  split; [rewrite E' in *; apply last_tick_snoc; auto|]. split; auto. apply (P _ H0).
Qed.

Lemma update_table_ok : forall m mt, vmap m -> 0 <= mt ->
  exists a, update_table m mt = Ok a /\ Z.of_nat (List.length a) = Z.max mt (last_tick m) + 1 /\
    goodto m a (Z.max mt (last_tick m)).
Proof.
  intros m mt V Hmt. destruct (vmap_last m V) as [pre [s [sc [E [EL [Hs Hsc]]]]]].
  assert (V' := V). destruct V' as [[s0 [r E0]] [Hm P]].
  assert (ER : rev m = (s, sc) :: rev pre) by (rewrite E, rev_app_distr; reflexivity).
  unfold update_table. rewrite ER.
  replace (fold_right Z.max (fst (hd (0, 0%Q) m)) (map fst m)) with (last_tick m) by (rewrite E0; reflexivity).
  set (M := if last_tick m <? mt then mt else last_tick m).
  assert (EM : M = Z.max mt (last_tick m)) by (unfold M; destruct (Z.ltb_spec (last_tick m) mt); lia).
  assert (HM : last_tick m <= M /\ 0 <= M) by lia. rewrite <- EM. clearbody M.
  set (z := repeat 0%Q (Z.to_nat (M + 1))). assert (Lz : List.length z = Z.to_nat (M + 1)) by (apply repeat_length).
  replace (upd_loop z 0 m) with (upd_loop z 0 ((0, s0) :: r)) by (rewrite E0; reflexivity).
  destruct (upd_loop_ok m r [] 0 s0 z 0%Q) as [a [le [s' [sc' [pre' [E1 [E2 [L [Tle G]]]]]]]]]; auto.
  - intros x Hx. pose proof (vmap_nonneg m x V Hx). pose proof (last_tick_ge m x Hx). lia.
  - reflexivity.
  - intros k Hk. replace k with 0 by lia. exists 0%Q. split; [|reflexivity]. unfold z. replace (Z.to_nat (M + 1)) with (S (Z.to_nat M)) by lia. reflexivity.
  - rewrite E1. cbn [bind]. rewrite E in E2. apply app_inj_tail in E2 as [<- E2]. injection E2 as <- <-.
    replace (Z.of_nat (List.length a)) with (M + 1) by lia.
    destruct (fill_ok m pre s sc [] M a le (M + 1 - s)) as [a' [E3 [L3 G3]]]; auto; try lia.
    + intros x [].
    + exists a'. split; auto. split; [lia|auto].
Qed.

(** ** objects *)
Definition pinv (m : list (Z * Q)) (p : pm) : Prop :=
  p_scales p = m /\ last_tick m < Z.of_nat (List.length (p_times p)) /\ goodto m (p_times p) (Z.of_nat (List.length (p_times p)) - 1).

Lemma tick_to_time_ok : forall m p k, vmap m -> pinv m p -> 0 <= k ->
  (MAX_TICK <= k -> tick_to_time p k = (Err IndexError, p)) /\
  (k < MAX_TICK -> exists t p', tick_to_time p k = (Ok t, p') /\ (t == T m k)%Q /\ pinv m p' /\ p_res p' = p_res p).
Proof.
  intros m p k V [E1 [E2 E3]] Hk. split; intros H; unfold tick_to_time.
  - destruct (Z.leb_spec MAX_TICK k); [reflexivity|lia].
  - destruct (Z.leb_spec MAX_TICK k); [lia|]. destruct (Z.leb_spec (Z.of_nat (List.length (p_times p))) k) as [L|L].
    + rewrite E1. destruct (update_table_ok m k V Hk) as [a [Ea [La Ga]]]. rewrite Ea. cbn [bind p_times].
      destruct (Ga k ltac:(lia)) as [t [Et Ht]]. rewrite (py_nth_ok _ a k t) by auto.
      exists t. eexists. split; [reflexivity|]. split; auto. split; [|reflexivity]. split; [reflexivity|]. cbn [p_times].
      split; [lia|]. rewrite La. replace (Z.max k (last_tick m) + 1 - 1) with (Z.max k (last_tick m)) by lia. auto.
    + destruct (E3 k ltac:(lia)) as [t [Et Ht]]. rewrite (py_nth_ok _ _ k t) by auto. exists t, p. repeat split; auto.
Qed.
Lemma tempo_changes_ok : forall m l p, vmap m -> (forall x, In x l -> 0 <= fst x < MAX_TICK /\ (0 < snd x)%Q) -> 0 < p_res p ->
  pinv m p -> exists out p', tempo_changes_loop p l = (Ok out, p') /\ pinv m p' /\ p_res p' = p_res p /\
    Forall2 (fun x o => fst o == T m (fst x) /\ snd o == 60 / (snd x * inject_Z (p_res p)))%Q l out.
Proof.
  intros m l. induction l as [|[k sc] l IH]; intros p V Hl Hr I; [exists [], p; simpl; auto|].
  destruct (Hl _ (or_introl eq_refl)) as [Hk Hsc]; simpl in Hk, Hsc.
  destruct (tick_to_time_ok m p k V I ltac:(lia)) as [_ H]. destruct (H ltac:(lia)) as [t [p' [E [Ht [I' R']]]]].
  cbn [tempo_changes_loop]. rewrite E.
  assert (D : Qeq_bool (sc * inject_Z (p_res p')) 0 = false).
  { destruct (Qeq_bool _ 0) eqn:D; auto. apply Qeq_bool_iff in D. exfalso. rewrite R' in D.
    assert (0 < inject_Z (p_res p))%Q by (change 0%Q with (inject_Z 0); rewrite <- Zlt_Qlt; auto).
    assert (0 < sc * inject_Z (p_res p))%Q by (apply Qmult_lt_0_compat; auto). lra. }
  rewrite D. destruct (IH p' V) as [out [p2 [E2 [I2 [R2 F2]]]]]; auto; [intros x Hx; apply Hl; right; auto|lia|].
  rewrite E2. eexists; exists p2. split; [reflexivity|]. split; auto. split; [lia|]. constructor.
  - simpl. split; auto. rewrite R'. reflexivity.
  - rewrite R' in F2. auto.
Qed.

Lemma tick_to_time_inv : forall m p k, vmap m -> pinv m p -> pinv m (snd (tick_to_time p k)).
Proof.
  intros m p k V I. destruct (Z_lt_le_dec k 0) as [L|L].
  - unfold tick_to_time. destruct (Z.leb_spec MAX_TICK k); auto. destruct (Z.leb_spec (Z.of_nat (List.length (p_times p))) k); [lia|]. auto.
  - destruct (tick_to_time_ok m p k V I L) as [H1 H2]. destruct (Z_lt_le_dec k MAX_TICK) as [H|H].
    + destruct (H2 H) as [t [p' [E [_ [I' _]]]]]. rewrite E. auto.
    + rewrite (H1 H). auto.
Qed.
Lemma tempo_changes_inv : forall m l p, vmap m -> pinv m p -> pinv m (snd (tempo_changes_loop p l)).
Proof.
  intros m l. induction l as [|[k sc] l IH]; intros p V I; [auto|]. cbn [tempo_changes_loop].
  pose proof (tick_to_time_inv m p k V I) as H. destruct (tick_to_time p k) as [[t|e] p']; simpl in H; auto.
  destruct (Qeq_bool _ 0); auto. specialize (IH p' V H). destruct (tempo_changes_loop p' l) as [[o|e] p2]; auto.
Qed.
Lemma res_kept : forall p k, p_res (snd (tick_to_time p k)) = p_res p.
Proof.
  intros p k. unfold tick_to_time. destruct (MAX_TICK <=? k); auto. destruct (_ <=? k); auto.
  destruct (update_table (p_scales p) k); simpl; auto.
Qed.
Lemma res_kept2 : forall l p, p_res (snd (tempo_changes_loop p l)) = p_res p.
Proof.
  induction l as [|[k sc] l IH]; intros p; auto. cbn [tempo_changes_loop]. pose proof (res_kept p k) as R.
  destruct (tick_to_time p k) as [[t|e] p']; auto. destruct (Qeq_bool _ 0); auto. specialize (IH p').
  destruct (tempo_changes_loop p' l) as [[o|e] p2]; simpl in *; congruence.
Qed.
Lemma pm_run_inv : forall m ops p, vmap m -> pinv m p -> pinv m (pm_run p ops) /\ p_res (pm_run p ops) = p_res p.
Proof.
  intros m. induction ops as [|o ops IH]; intros p V I; [auto|]. unfold pm_run; simpl.
  destruct (IH (pm_step p o) V) as [A B].
  - destruct o; simpl; auto; [apply tick_to_time_inv|apply tempo_changes_inv]; auto.
  - split; auto. unfold pm_run in B. rewrite B. destruct o; simpl; auto; [apply res_kept|apply res_kept2].
Qed.

Lemma inject_Z_sub : forall a b, (inject_Z (a - b) == inject_Z a - inject_Z b)%Q.
Proof. intros. unfold Z.sub. rewrite inject_Z_plus, inject_Z_opp. reflexivity. Qed.
Lemma T_mono : forall m j k, vmap m -> 0 <= j < k -> (T m j < T m k)%Q.
Proof. intros m j k V H. apply sum_to_mono; auto. intros i Hi. apply at_tick_pos; auto. Qed.
Lemma T_mono_le : forall m j k, vmap m -> 0 <= j <= k -> (T m j <= T m k)%Q.
Proof. intros m j k V H. destruct (Z.eq_dec j k) as [->|]; [lra|]. pose proof (T_mono m j k V ltac:(lia)). lra. Qed.
Lemma T_split : forall m t n, vmap m -> exists i, (i <= n)%nat /\ (forall j, (j < i)%nat -> (T m (Z.of_nat j) < t)%Q) /\
  (forall j, (i <= j)%nat -> (j < n)%nat -> (t <= T m (Z.of_nat j))%Q).
Proof.
  intros m t n V. induction n as [|n [i [H1 [H2 H3]]]].
  - exists 0%nat. repeat split; intros; lia.
  - destruct (Qlt_le_dec (T m (Z.of_nat n)) t) as [L|L].
    + exists (S n). split; [lia|]. split; [|intros; lia]. intros j Hj. pose proof (T_mono_le m (Z.of_nat j) (Z.of_nat n) V ltac:(lia)). lra.
    + exists i. split; [lia|]. split; auto. intros j Hj Hj'. destruct (Nat.eq_dec j n) as [->|]; auto. apply H3; lia.
Qed.
Lemma Qabsb_le : forall a b, (-b <= a)%Q -> (a <= b)%Q -> (Qabsb a <= b)%Q.
Proof. intros. destruct (Qabsb_spec a) as [[_ ->]|[_ ->]]; lra. Qed.
Lemma Qabsb_comp : forall a b, (a == b)%Q -> (Qabsb a == Qabsb b)%Q.
Proof. intros a b H. destruct (Qabsb_spec a) as [[? ->]|[? ->]], (Qabsb_spec b) as [[? ->]|[? ->]]; lra. Qed.
Lemma T_tail : forall m pre s sc j k, vmap m -> m = pre ++ [(s, sc)] -> 0 <= s <= j -> j <= k ->
  (T m k == T m j + sc * inject_Z (k - j))%Q.
Proof.
  intros m pre s sc j k V E H1 H2. unfold T. apply sum_to_seg; [lia|]. intros i Hi. unfold tf. rewrite E, at_tick_seg; [reflexivity|lia|intros e []].
Qed.
Lemma round_floor : forall x j, (inject_Z j <= x)%Q -> j <= round_half_even x.
Proof.
  intros x j H. assert (j <= Qfloor x) by (rewrite <- (Qfloor_Z j); apply Qfloor_resp_le; auto).
  unfold round_half_even. repeat (destruct (Qltb _ _) || destruct (Z.even _)); lia.
Qed.
Lemma int_gap : forall a b : Z, a <> b -> (1 <= Qabsb (inject_Z a - inject_Z b))%Q.
Proof.
  intros a b H. assert (G : a + 1 <= b \/ b + 1 <= a) by lia.
  destruct (Qabsb_abs (inject_Z a - inject_Z b)) as [A1 [A2 _]].
  destruct G as [G|G]; rewrite Zle_Qle, inject_Z_plus in G; change (inject_Z 1) with 1%Q in G; lra.
Qed.

Lemma time_to_tick_ok : forall m p t, vmap m -> pinv m p ->
  exists k, time_to_tick p t = Ok k /\ 0 <= k /\ (forall j, 0 <= j -> (Qabsb (t - T m k) <= Qabsb (t - T m j))%Q).
Proof.
  intros m p t V [E1 [E2 E3]]. set (n := List.length (p_times p)) in *.
  destruct (T_split m t n V) as [i [H1 [H2 H3]]].
  assert (NT : forall x, (x < n)%nat -> exists q, nth_error (p_times p) x = Some q /\ (q == T m (Z.of_nat x))%Q).
  { intros x Hx. destruct (E3 (Z.of_nat x) ltac:(lia)) as [q Hq]. rewrite Nat2Z.id in Hq. exists q. auto. }
  assert (B : bisect_left Qltb (p_times p) t = i).
  { apply bisect_left_spec; auto.
    - intros x y Hx Hy. destruct (NT x ltac:(lia)) as [q [Q1 Q2]]. rewrite Hy in Q1. injection Q1 as ->.
      apply Qltb_lt. specialize (H2 x Hx). lra.
    - intros x y Hx Hy. assert (x < n)%nat by (apply nth_error_Some; rewrite Hy; discriminate).
      destruct (NT x ltac:(lia)) as [q [Q1 Q2]]. rewrite Hy in Q1. injection Q1 as ->.
      apply Qltb_ge. specialize (H3 x Hx H). lra. }
  unfold time_to_tick. cbv zeta. rewrite B. clear B. fold n.
  destruct (vmap_last m V) as [pre [s [sc [Em [EL [Hs Hsc]]]]]].
  destruct (Nat.eqb_spec i n) as [Ein|Ein].
  - subst i. assert (0 < n)%nat by lia. destruct (NT (n - 1)%nat ltac:(lia)) as [tl [N1 N2]].
    rewrite (py_nth_ok _ _ (Z.of_nat n - 1) tl) by (try lia; replace (Z.to_nat (Z.of_nat n - 1)) with (n - 1)%nat by lia; auto). cbn [bind].
    assert (ER : rev (p_scales p) = (s, sc) :: rev pre) by (rewrite E1, Em, rev_app_distr; reflexivity). rewrite ER.
    destruct (Qeq_bool sc 0) eqn:EQ; [apply Qeq_bool_iff in EQ; exfalso; lra|].
    set (j := Z.of_nat n - 1) in *. replace (Z.of_nat (n - 1)) with j in N2 by lia.
    set (x := (inject_Z j + (t - tl) / sc)%Q). set (r := round_half_even x).
    assert (Htl : (tl < t)%Q) by (specialize (H2 (n - 1)%nat ltac:(lia)); replace (Z.of_nat (n - 1)) with j in H2 by lia; lra).
    assert (Ht : (t == tl + sc * (x - inject_Z j))%Q) by (unfold x; field; lra).
    assert (Hx : (inject_Z j <= x)%Q).
    { assert (~ (x < inject_Z j)%Q); [intro C|lra]. assert (0 < sc * (inject_Z j - x))%Q by (apply Qmult_lt_0_compat; lra). lra. }
    pose proof (round_floor x j Hx) as Hr. fold r in Hr.
    pose proof (round_half_even_near x) as Hn. fold r in Hn.
    exists r. split; auto. split; [lia|]. intros k Hk.
    assert (Tr : (T m r == tl + sc * inject_Z (r - j))%Q) by (rewrite (T_tail m pre s sc j r) by (auto; lia); rewrite N2; reflexivity).
    rewrite inject_Z_sub in Tr.
    assert (Dr : (t - T m r == sc * (x - inject_Z r))%Q) by (rewrite Tr, Ht; ring).
    assert (Dj : forall k, j <= k -> (t - T m k == sc * (x - inject_Z k))%Q).
    { intros k0 Hk0. rewrite (T_tail m pre s sc j k0) by (auto; lia). rewrite inject_Z_sub, <- N2, Ht at 1. ring. }
    destruct (Z_lt_le_dec k j) as [Lk|Lk].
    + assert (N : (Qabsb (t - T m r) <= Qabsb (t - T m j))%Q).
      { destruct (Z.eq_dec j r) as [Ee|Ne]; [rewrite <- Ee; lra|]. pose proof (int_gap j r Ne) as G.
        rewrite (Qabsb_comp _ _ Dr), (Qabsb_comp _ _ (Dj j ltac:(lia))).
        assert (Hxx : (0 <= x - inject_Z j)%Q) by lra.
        assert (S1 : (0 <= sc * (x - inject_Z j))%Q) by (apply Qmult_le_0_compat; lra).
        destruct (Qabsb_spec (inject_Z r - x)) as [[A1 A2]|[A1 A2]]; rewrite A2 in Hn;
        destruct (Qabsb_spec (inject_Z j - inject_Z r)) as [[A3 A4]|[A3 A4]]; rewrite A4 in G; apply Qabsb_le;
        destruct (Qabsb_spec (sc * (x - inject_Z j))) as [[A5 ->]|[A5 ->]]; nra. }
      pose proof (T_mono m k j V ltac:(lia)). pose proof (T_mono_le m k j V ltac:(lia)).
      assert (A : (Qabsb (t - T m j) <= Qabsb (t - T m k))%Q).
      { destruct (Qabsb_spec (t - T m j)) as [[? ->]|[? ->]], (Qabsb_spec (t - T m k)) as [[? ->]|[? ->]]; lra. }
      lra.
    + destruct (Z.eq_dec k r) as [Ee|Ne]; [rewrite <- Ee; lra|]. pose proof (int_gap k r Ne) as G.
      rewrite (Qabsb_comp _ _ Dr), (Qabsb_comp _ _ (Dj k ltac:(lia))).
      assert (Hd : (Qabsb (x - inject_Z r) <= Qabsb (x - inject_Z k))%Q).
      { destruct (Qabsb_spec (inject_Z r - x)) as [[A1 A2]|[A1 A2]]; rewrite A2 in Hn;
        destruct (Qabsb_spec (inject_Z k - inject_Z r)) as [[A3 A4]|[A3 A4]]; rewrite A4 in G;
        destruct (Qabsb_spec (x - inject_Z r)) as [[? ->]|[? ->]], (Qabsb_spec (x - inject_Z k)) as [[? ->]|[? ->]]; lra. }
      revert Hd. generalize (x - inject_Z r)%Q, (x - inject_Z k)%Q. intros u v Hd.
      destruct (Qabsb_spec u) as [[? Eu]|[? Eu]], (Qabsb_spec v) as [[? Ev]|[? Ev]]; rewrite Eu, Ev in Hd;
      destruct (Qabsb_spec (sc * u)) as [[? ->]|[? ->]], (Qabsb_spec (sc * v)) as [[? ->]|[? ->]]; nra.
  - destruct (Nat.eqb_spec i 0) as [Ei0|Ei0].
    + exists 0. split; auto. split; [lia|]. intros j Hj. specialize (H3 0%nat ltac:(lia) ltac:(lia)).
      pose proof (T_mono_le m 0 j V ltac:(lia)). change (Z.of_nat 0) with 0 in H3.
      destruct (Qabsb_spec (t - T m 0)) as [[? ->]|[? ->]], (Qabsb_spec (t - T m j)) as [[? ->]|[? ->]]; lra.
    + destruct (NT (i - 1)%nat ltac:(lia)) as [t0 [N1 N2]]. destruct (NT i ltac:(lia)) as [t1 [N3 N4]].
      rewrite (py_nth_ok _ _ (Z.of_nat i - 1) t0) by (try lia; replace (Z.to_nat (Z.of_nat i - 1)) with (i - 1)%nat by lia; auto).
      rewrite (py_nth_ok _ _ (Z.of_nat i) t1) by (try lia; rewrite Nat2Z.id; auto). cbn [bind].
      replace (Z.of_nat (i - 1)) with (Z.of_nat i - 1) in N2 by lia.
      specialize (H2 (i - 1)%nat ltac:(lia)). specialize (H3 i ltac:(lia) ltac:(lia)).
      replace (Z.of_nat (i - 1)) with (Z.of_nat i - 1) in H2 by lia. set (I := Z.of_nat i) in *.
      assert (Hj : forall j, 0 <= j -> (T m j <= T m (I - 1))%Q \/ (T m I <= T m j)%Q).
      { intros j Hj. destruct (Z_lt_le_dec j I); [left|right]; apply T_mono_le; auto; lia. }
      destruct (Qltb (Qabsb (t - t0)) (Qabsb (t - t1))) eqn:Q; qb.
      * exists (I - 1). split; auto. split; [lia|]. intros j Hj'. destruct (Hj j Hj');
        destruct (Qabsb_spec (t - t0)) as [[? Z0]|[? Z0]], (Qabsb_spec (t - t1)) as [[? Z1]|[? Z1]]; rewrite Z0, Z1 in Q;
        destruct (Qabsb_spec (t - T m (I - 1))) as [[? ->]|[? ->]], (Qabsb_spec (t - T m j)) as [[? ->]|[? ->]]; lra.
      * exists I. split; auto. split; [lia|]. intros j Hj'. destruct (Hj j Hj');
        destruct (Qabsb_spec (t - t0)) as [[? Z0]|[? Z0]], (Qabsb_spec (t - t1)) as [[? Z1]|[? Z1]]; rewrite Z0, Z1 in Q;
        destruct (Qabsb_spec (t - T m I)) as [[? ->]|[? ->]], (Qabsb_spec (t - T m j)) as [[? ->]|[? ->]]; lra.
Qed.

(** ** loading tempo events *)
Definition tlen (resolution tempo : Z) : Q := (inject_Z tempo / (1000000 * inject_Z resolution))%Q.
Lemma inject_pos' : forall z, 0 < z -> (0 < inject_Z z)%Q.
Proof. intros z H. change 0%Q with (inject_Z 0). rewrite <- Zlt_Qlt. auto. Qed.
Lemma scale_bpm_ok : forall b r, (0 < b)%Q -> 0 < r -> exists s, scale_of_bpm b r = Ok s /\ (s == 60 / (b * inject_Z r))%Q /\ (0 < s)%Q.
Proof.
  intros b r Hb Hr. unfold scale_of_bpm. assert (P : (0 < b * inject_Z r)%Q) by (apply Qmult_lt_0_compat; auto; apply inject_pos'; auto).
  destruct (Qeq_bool _ 0) eqn:E; [apply Qeq_bool_iff in E; lra|]. eexists; split; [reflexivity|]. split; [reflexivity|].
  apply Qlt_shift_div_l; auto. lra.
Qed.
Lemma scale_tempo_ok : forall tp r, 0 < tp -> 0 < r -> exists s, scale_of_tempo tp r = Ok s /\ (s == tlen r tp)%Q /\ (0 < s)%Q.
Proof.
  intros tp r Ht Hr. unfold scale_of_tempo. destruct (Z.eqb_spec tp 0); [lia|]. pose proof (inject_pos' tp Ht). pose proof (inject_pos' r Hr).
  destruct (scale_bpm_ok (60000000 / inject_Z tp) r) as [s [E [Es Ps]]]; auto; [apply Qlt_shift_div_l; lra|].
  exists s. split; auto. split; auto. rewrite Es. unfold tlen. field. split; lra.
Qed.
Definition norep (m : list (Z * Q)) : Prop := forall l1 a b l2, m = l1 ++ a :: b :: l2 -> ~ (snd a == snd b)%Q.
Definition linv (resolution : Z) (E : list (Z * Z)) (m : list (Z * Q)) : Prop :=
  vmap m /\ (forall j, 0 <= j -> (tf m j == tick_length resolution E j)%Q) /\ norep m /\
  (forall x, In x m -> fst x = 0 \/ exists e, In e E /\ fst e = fst x).
Lemma norep_snoc : forall m a b, norep (m ++ [a]) -> ~ (snd a == snd b)%Q -> norep (m ++ [a; b]).
Proof.
  intros m a b H N l1 x y l2 E. destruct (exists_last (l := y :: l2)) as [l3 [z Ez]]; [discriminate|].
  destruct l3 as [|w l3].
  - simpl in Ez. injection Ez as -> ->. replace (m ++ [a; b]) with ((m ++ [a]) ++ [b]) in E by (rewrite <- app_assoc; auto).
    replace (l1 ++ [x; z]) with ((l1 ++ [x]) ++ [z]) in E by (rewrite <- app_assoc; auto).
    apply app_inj_tail in E as [E ->]. apply app_inj_tail in E as [_ ->]. auto.
  - apply (H l1 x y (l3)). injection Ez as -> ->.
    replace (m ++ [a; b]) with ((m ++ [a]) ++ [b]) in E by (rewrite <- app_assoc; auto).
    replace (l1 ++ x :: w :: l3 ++ [z]) with ((l1 ++ x :: w :: l3) ++ [z]) in E by (rewrite <- app_assoc; auto).
    apply app_inj_tail in E as [E _]. auto.
Qed.
Lemma load_step : forall r E m tk tp, 0 < r -> linv r E m -> tempo_events (E ++ [(tk, tp)]) ->
  forall rest, exists m', load_tempo_loop r ((tk, tp) :: rest) m = load_tempo_loop r rest m' /\ linv r (E ++ [(tk, tp)]) m'.
Proof.
  intros r E m tk tp Hr [V [F [NR B]]] [S P] rest.
  assert (Hin : In (tk, tp) (E ++ [(tk, tp)])) by (apply in_or_app; right; left; auto).
  destruct (P _ Hin) as [Htk Htp]; simpl in Htk, Htp.
  destruct (msorted_app _ E [(tk, tp)] S) as [_ SE].
  assert (SE' : forall e, In e E -> 0 <= fst e <= tk).
  { intros e He. split; [apply P; apply in_or_app; auto|]. apply (SE e (tk, tp)); auto. left; auto. }
  destruct (scale_tempo_ok tp r Htp Hr) as [s [Es [Es2 Es3]]].
  assert (TL : forall j, 0 <= j -> tick_length r (E ++ [(tk, tp)]) j = if tk <=? j then tlen r tp else tick_length r E j).
  { intros j Hj. unfold tick_length. rewrite at_tick_app. unfold at_tick at 1; simpl. destruct (tk <=? j); reflexivity. }
  cbn [load_tempo_loop]. rewrite Es. cbn [bind]. destruct (Z.eqb_spec tk 0) as [E0|E0].
  - subst tk. exists [(0, s)]. split; [reflexivity|]. split; [|split; [|split]].
    + split; [eauto|]. split; [repeat constructor|]. intros e [<-|[]]; auto.
    + intros j Hj. rewrite TL by auto. destruct (Z.leb_spec 0 j); [|lia]. unfold tf, at_tick; simpl. destruct (Z.leb_spec 0 j); [auto|lia].
    + intros l1 a b l2 Eq. destruct l1 as [|? [|? l1]]; discriminate.
    + intros x [<-|[]]; auto.
  - destruct (vmap_last m V) as [pre [s0 [sc [Em [EL [Hs0 Hsc]]]]]].
    assert (ER : rev m = (s0, sc) :: rev pre) by (rewrite Em, rev_app_distr; reflexivity). rewrite ER.
    assert (Hs0tk : s0 <= tk).
    { destruct (B (s0, sc)) as [H|[e [He1 He2]]]; [rewrite Em; apply in_or_app; right; left; auto|simpl in H; lia|].
      simpl in He2. destruct (SE' e He1). lia. }
    destruct (Qeq_bool s sc) eqn:EQ.
    + apply Qeq_bool_iff in EQ. exists m. split; [reflexivity|]. split; auto. split; [|split; auto].
      * intros j Hj. rewrite TL by auto. destruct (Z.leb_spec tk j); [|auto].
        unfold tf. rewrite Em, at_tick_seg by (try lia; intros e []). rewrite <- Es2. symmetry; auto.
      * intros x Hx. destruct (B x Hx) as [H|[e [H1 H2]]]; auto. right; exists e; split; auto. apply in_or_app; auto.
    + exists (m ++ [(tk, s)]). split; [reflexivity|]. split; [|split; [|split]].
      * destruct V as [[s1 [r1 E1]] [V2 V3]]. split; [exists s1, (r1 ++ [(tk, s)]); rewrite E1; reflexivity|]. split.
        -- assert (forall x, In x m -> fst x <= tk) by (intros x Hx; pose proof (last_tick_ge m x Hx); lia).
           clear - V2 H. unfold msorted in *. induction m as [|x m IH]; simpl; [repeat constructor|].
           apply StronglySorted_inv in V2 as [A1 A2]. constructor; [apply IH; auto; intros; apply H; right; auto|].
           apply Forall_app; split; auto. repeat constructor. simpl. apply H. left; auto.
        -- intros e He. apply in_app_iff in He as [He|[<-|[]]]; auto.
      * intros j Hj. rewrite TL by auto. unfold tf. rewrite at_tick_app. unfold at_tick at 1; simpl. destruct (tk <=? j); auto. apply F; auto.
      * rewrite Em, <- app_assoc. simpl. apply norep_snoc; [rewrite <- Em; auto|]. simpl. intro C. symmetry in C. apply Qeq_bool_iff in C. congruence.
      * intros x Hx. apply in_app_iff in Hx as [Hx|[<-|[]]].
        -- destruct (B x Hx) as [H|[e [H1 H2]]]; auto. right; exists e; split; auto. apply in_or_app; auto.
        -- right. exists (tk, tp). auto.
Qed.
Lemma tempo_events_prefix : forall a b, tempo_events (a ++ b) -> tempo_events a.
Proof.
  intros a b [S P]. split; [|intros e He; apply P; apply in_or_app; auto].
  induction a as [|x a IH]; [constructor|]. simpl in S. apply StronglySorted_inv in S as [S1 S2]. constructor.
  - apply IH; auto. intros e He; apply P; right; auto.
  - apply Forall_app in S2 as [S2 _]. auto.
Qed.
Lemma load_loop_ok : forall r evs E m, 0 < r -> linv r E m -> tempo_events (E ++ evs) ->
  exists m', load_tempo_loop r evs m = Ok m' /\ linv r (E ++ evs) m'.
Proof.
  intros r evs. induction evs as [|[tk tp] evs IH]; intros E m Hr L TE; [exists m; rewrite app_nil_r; auto|].
  replace (E ++ (tk, tp) :: evs) with ((E ++ [(tk, tp)]) ++ evs) in * by (rewrite <- app_assoc; auto).
  destruct (load_step r E m tk tp Hr L (tempo_events_prefix _ _ TE) evs) as [m' [E1 L1]]. rewrite E1. apply IH; auto.
Qed.
Lemma load_ok : forall r evs, 0 < r -> tempo_events evs -> exists m, load_tempo r evs = Ok m /\ linv r evs m.
Proof.
  intros r evs Hr TE. unfold load_tempo. destruct (scale_bpm_ok 120 r) as [s [E [E2 E3]]]; auto; [lra|]. rewrite E. cbn [bind].
  apply (load_loop_ok r evs [] _ Hr); auto. split; [|split; [|split]].
  - split; [eauto|]. split; [repeat constructor|]. intros e [<-|[]]; auto.
  - intros j Hj. unfold tf, at_tick; simpl. destruct (Z.leb_spec 0 j); [|lia]. rewrite E2. unfold tick_length. simpl.
    pose proof (inject_pos' r Hr). field. lra.
  - intros l1 a b l2 Eq. destruct l1 as [|? [|? l1]]; discriminate.
  - intros x [<-|[]]; auto.
Qed.
Lemma pm_load_ok : forall r evs last, 0 < r -> tempo_events evs -> 0 <= last -> last < MAX_TICK ->
  exists p m, pm_load r evs last = Ok p /\ load_tempo r evs = Ok m /\ linv r evs m /\ pinv m p /\ p_res p = r.
Proof.
  intros r evs last Hr TE H0 H1. unfold pm_load. destruct (load_ok r evs Hr TE) as [m [E L]]. rewrite E. cbn [bind].
  destruct (Z.ltb_spec MAX_TICK (last + 1)); [lia|]. destruct L as [V L]. destruct (update_table_ok m (last + 1) V ltac:(lia)) as [a [Ea [La Ga]]].
  rewrite Ea. cbn [bind]. eexists; exists m. split; [reflexivity|]. split; auto. split; [split; auto|]. split; [|reflexivity].
  split; [reflexivity|]. cbn [p_times]. split; [lia|]. rewrite La. replace (Z.max (last + 1) (last_tick m) + 1 - 1) with (Z.max (last + 1) (last_tick m)) by lia. auto.
Qed.
Lemma pm_new_ok : forall r tp, 0 < r -> (0 < tp)%Q -> exists p m, pm_new r tp = Ok p /\ vmap m /\ pinv m p /\ p_res p = r /\
  (forall j, 0 <= j -> (tf m j == 60 / (tp * inject_Z r))%Q).
Proof.
  intros r tp Hr Ht. unfold pm_new. destruct (scale_bpm_ok tp r Ht Hr) as [s [E [E2 E3]]]. rewrite E. cbn [bind].
  eexists; exists [(0, s)]. split; [reflexivity|]. split; [|split; [|split]].
  - split; [eauto|]. split; [repeat constructor|]. intros e [<-|[]]; auto.
  - split; [reflexivity|]. cbn [p_times]. split; [reflexivity|]. intros k Hk. simpl in Hk. replace k with 0 by lia. exists 0%Q. split; reflexivity.
  - reflexivity.
  - intros j Hj. unfold tf, at_tick; simpl. destruct (Z.leb_spec 0 j); [|lia]. auto.
Qed.

(** ** statements *)
Lemma T_ext : forall m f k, (forall j, 0 <= j -> (tf m j == f j)%Q) -> (T m k == sum_to f k)%Q.
Proof. intros. unfold T. apply sum_to_ext. intros; apply H; lia. Qed.

Definition has_ticks (p : pm) (f : Z -> Q) : Prop :=
  forall ops, let p' := pm_run p ops in
  (forall k, 0 <= k -> (MAX_TICK <= k -> tick_to_time p' k = (Err IndexError, p')) /\
    (k < MAX_TICK -> exists t, fst (tick_to_time p' k) = Ok t /\ (t == sum_to f k)%Q)) /\
  (forall t, exists k, time_to_tick p' t = Ok k /\ 0 <= k /\ forall j, 0 <= j -> (Qabsb (t - sum_to f k) <= Qabsb (t - sum_to f j))%Q).

Lemma has_ticks_of : forall m p f, vmap m -> pinv m p -> (forall j, 0 <= j -> (tf m j == f j)%Q) -> has_ticks p f.
Proof.
  intros m p f V I Hf ops p'. destruct (pm_run_inv m ops p V I) as [I' _]. fold p' in I'. split.
  - intros k Hk. destruct (tick_to_time_ok m p' k V I' Hk) as [A B]. split; auto. intros L. destruct (B L) as [t [p2 [E [Et _]]]].
    exists t. rewrite E. split; auto. rewrite Et. apply T_ext; auto.
  - intros t. destruct (time_to_tick_ok m p' t V I') as [k [E [Hk N]]]. exists k. split; auto. split; auto. intros j Hj.
    specialize (N j Hj). rewrite (Qabsb_comp (t - sum_to f k) (t - T m k)) by (rewrite (T_ext m f k Hf); reflexivity).
    rewrite (Qabsb_comp (t - sum_to f j) (t - T m j)) by (rewrite (T_ext m f j Hf); reflexivity). auto.
Qed.
Lemma pm_load_reject : forall r evs last, 0 < r -> tempo_events evs -> MAX_TICK <= last -> pm_load r evs last = Err ValueError.
Proof.
  intros. unfold pm_load. destruct (load_ok r evs H H0) as [m [E _]]. rewrite E. cbn [bind]. destruct (Z.ltb_spec MAX_TICK (last + 1)); [auto|lia].
Qed.
Lemma exact_tick : forall f t k j, (forall i, 0 <= i -> (0 < f i)%Q) -> 0 <= k -> 0 <= j -> (t == sum_to f j)%Q ->
  (forall i, 0 <= i -> (Qabsb (t - sum_to f k) <= Qabsb (t - sum_to f i))%Q) -> k = j.
Proof.
  intros f t k j P Hk Hj E H. specialize (H j Hj).
  destruct (Z.lt_trichotomy k j) as [L|[L|L]]; auto; exfalso;
  [pose proof (sum_to_mono f k j P ltac:(lia))|pose proof (sum_to_mono f j k P ltac:(lia))];
  destruct (Qabsb_spec (t - sum_to f k)) as [[? Z0]|[? Z0]], (Qabsb_spec (t - sum_to f j)) as [[? Z1]|[? Z1]]; rewrite Z0, Z1 in H; lra.
Qed.

Lemma tick_length_pos : forall r evs j, 0 < r -> tempo_events evs -> (0 < tick_length r evs j)%Q.
Proof.
  intros r evs j Hr [_ P]. unfold tick_length. pose proof (inject_pos' r Hr). apply Qlt_shift_div_l; [lra|].
  assert (0 < at_tick evs j 500000).
  { destruct (at_tick_In _ evs j 500000) as [E|[e [E1 E2]]]; [rewrite E; lia|rewrite E2; apply P; auto]. }
  pose proof (inject_pos' _ H0). lra.
Qed.
Lemma msorted_split : forall (m : list (Z * Q)) s0 r0 j, m = (0, s0) :: r0 -> msorted m -> 0 <= j ->
  exists pre s sc post, m = pre ++ (s, sc) :: post /\ s <= j /\ (forall x, In x post -> j < fst x).
Proof.
  intros m s0 r0 j Em H Hj. assert (G : forall r pre s sc, m = pre ++ (s, sc) :: r -> s <= j ->
    exists pre s sc post, m = pre ++ (s, sc) :: post /\ s <= j /\ (forall x, In x post -> j < fst x)).
  { induction r as [|[s2 sc2] r IH]; intros pre s sc E L.
    - exists pre, s, sc, []. repeat split; auto. intros x [].
    - destruct (Z_lt_le_dec j s2) as [L2|L2].
      + exists pre, s, sc, ((s2, sc2) :: r). repeat split; auto. rewrite E in H. apply msorted_app in H as [H _].
        apply StronglySorted_inv in H as [H _]. apply StronglySorted_inv in H as [_ H]. rewrite Forall_forall in H.
        intros x [<-|Hx]; simpl; auto. specialize (H x Hx). simpl in H. lia.
      + apply (IH (pre ++ [(s, sc)]) s2 sc2); auto. rewrite <- app_assoc; auto. }
  apply (G r0 [] 0 s0); auto.
Qed.
Lemma tempo_report : forall r evs last ops, 0 < r -> tempo_events evs -> (forall e, In e evs -> fst e <= last) -> 0 <= last < MAX_TICK ->
  exists p out, pm_load r evs last = Ok p /\ fst (get_tempo_changes (pm_run p ops)) = Ok out /\
    (exists c o, out = c :: o /\ (fst c == 0)%Q) /\
    StronglySorted (fun a b => (fst a <= fst b)%Q) out /\
    (forall j, 0 <= j -> exists l1 c l2, out = l1 ++ c :: l2 /\ (fst c <= sum_to (tick_length r evs) j)%Q /\
       (forall x, In x l2 -> (sum_to (tick_length r evs) j < fst x)%Q) /\
       (snd c == 60000000 / inject_Z (at_tick evs j 500000%Z))%Q).
Proof.
  intros r evs last ops Hr TE HL H. destruct (pm_load_ok r evs last Hr TE ltac:(lia) ltac:(lia)) as [p [m [E [Em [[V [F [NR B]]] [I R]]]]]].
  destruct (pm_run_inv m ops p V I) as [I' R']. set (p' := pm_run p ops) in *.
  destruct (tempo_changes_ok m m p' V) as [out [p2 [E2 [_ [_ F2]]]]]; auto; [|lia|].
  { intros x Hx. destruct V as [V0 [V1 V2]]. split; [|apply V2; auto]. destruct (B x Hx) as [->|[e [He He2]]]; [unfold MAX_TICK; lia|].
    rewrite <- He2. destruct TE as [_ TE]. destruct (TE e He). specialize (HL e He). lia. }
  exists p, out. split; auto. split.
  { fold p'. unfold get_tempo_changes. destruct I' as [-> _]. rewrite E2. reflexivity. }
  assert (TT : forall k, (T m k == sum_to (tick_length r evs) k)%Q) by (intro k; apply T_ext; auto).
  assert (TD : forall l o, Forall2 (fun x o => fst o == T m (fst x) /\ snd o == 60 / (snd x * inject_Z (p_res p')))%Q l o ->
     forall b, In b o -> exists x, In x l /\ (fst b == T m (fst x))%Q).
  { intros l o FF. induction FF as [|x o0 l o [Q1 Q2] FF IH]; intros b Hb; [destruct Hb|]. destruct Hb as [<-|Hb]; [exists x; split; [left|]; auto|].
    destruct (IH b Hb) as [y [Y1 Y2]]. exists y. split; [right|]; auto. }
  split; [|split].
  - destruct V as [[s [m' ->]] _]. inversion F2 as [|x o l l' [Q1 Q2] FF]; subst. exists o, l'. split; auto.
  - assert (V0 : forall x, In x m -> 0 <= fst x) by (intros; apply (vmap_nonneg m); auto).
    assert (G : forall l o, Forall2 (fun x o => fst o == T m (fst x) /\ snd o == 60 / (snd x * inject_Z (p_res p')))%Q l o ->
      (forall x, In x l -> 0 <= fst x) -> msorted l -> StronglySorted (fun a b => (fst a <= fst b)%Q) o).
    { intros l o FF. induction FF as [|x o l o' [Q1 Q2] FF IH]; intros W0 W2; [constructor|]. apply StronglySorted_inv in W2 as [S1 S2].
      rewrite Forall_forall in S2. constructor; [apply IH; auto; intros; apply W0; right; auto|]. apply Forall_forall. intros b Hb.
      destruct (TD _ _ FF b Hb) as [y [Y1 Y2]]. rewrite Q1, Y2. apply T_mono_le; auto. split; [apply W0; left; auto|apply S2; auto]. }
    apply (G m out F2 V0). apply V.
  - intros j Hj. assert (VV := V). destruct V as [[s0 [m0 V0]] [V2 V3]].
    destruct (msorted_split m s0 m0 j V0 V2 Hj) as [pre [s [sc [post [Es [Hs Hp]]]]]].
    assert (Fj := F j Hj). unfold tf in Fj. rewrite Es, at_tick_seg in Fj by auto.
    assert (F2' : Forall2 (fun x o => fst o == T m (fst x) /\ snd o == 60 / (snd x * inject_Z (p_res p')))%Q (pre ++ (s, sc) :: post) out)
      by (rewrite <- Es; exact F2).
    apply Forall2_app_inv_l in F2' as [l1 [l2' [FA [FB Eo]]]]. destruct l2' as [|c l2]; [inversion FB|].
    inversion_clear FB as [|? ? ? ? [Q1 Q2] FB']. exists l1, c, l2. split; auto. simpl in Q1, Q2.
    assert (Hsn : 0 <= s) by (apply (vmap_nonneg _ (s, sc) VV); rewrite Es; apply in_or_app; right; left; auto).
    split; [rewrite Q1, <- TT; apply T_mono_le; auto|]. split.
    + intros b Hb. destruct (TD _ _ FB' b Hb) as [y [Y1 Y2]]. rewrite Y2, <- TT. apply T_mono; auto.
    + rewrite Q2, Fj, R', R. unfold tick_length. pose proof (inject_pos' r Hr).
      assert (0 < at_tick evs j 500000).
      { destruct TE as [_ TE]. destruct (at_tick_In _ evs j 500000) as [A|[e [A1 A2]]]; [rewrite A; lia|rewrite A2; apply TE; auto]. }
      pose proof (inject_pos' _ H1). field. split; lra.
Qed.

Lemma loaded_ticks : forall r evs last, 0 < r -> tempo_events evs -> 0 <= last ->
  (MAX_TICK <= last -> pm_load r evs last = Err ValueError) /\
  (last < MAX_TICK -> exists p, pm_load r evs last = Ok p /\ has_ticks p (tick_length r evs)).
Proof.
  intros r evs last Hr TE H0. split; intros H; [apply pm_load_reject; auto|].
  destruct (pm_load_ok r evs last Hr TE H0 H) as [p [m [E [_ [[V [F _]] [I _]]]]]]. exists p. split; auto. apply (has_ticks_of m); auto.
Qed.
Lemma sum_const : forall c k, 0 <= k -> (sum_to (fun _ => c) k == inject_Z k * c)%Q.
Proof. intros c k H. rewrite (sum_to_seg _ 0 k c); [|lia|reflexivity]. rewrite sum_to_0. replace (k - 0) with k by lia. ring. Qed.
Lemma C36a : forall r evs last, 0 < r -> tempo_events evs -> 0 <= last ->
  (MAX_TICK <= last -> pm_load r evs last = Err ValueError) /\
  (last < MAX_TICK -> exists p, pm_load r evs last = Ok p /\
     forall ops k, 0 <= k -> let p' := pm_run p ops in
       (MAX_TICK <= k -> tick_to_time p' k = (Err IndexError, p')) /\
       (k < MAX_TICK -> exists t, fst (tick_to_time p' k) = Ok t /\ (t == sum_to (tick_length r evs) k)%Q)).
Proof.
  intros r evs last Hr TE H0. destruct (loaded_ticks r evs last Hr TE H0) as [A B]. split; auto. intros H.
  destruct (B H) as [p [E HT]]. exists p. split; auto. intros ops k Hk. apply (HT ops); auto.
Qed.
Lemma C36b : forall r tempo, 0 < r -> (0 < tempo)%Q -> exists p, pm_new r tempo = Ok p /\
  forall ops k, 0 <= k -> let p' := pm_run p ops in
    (MAX_TICK <= k -> tick_to_time p' k = (Err IndexError, p')) /\
    (k < MAX_TICK -> exists t, fst (tick_to_time p' k) = Ok t /\ (t == inject_Z k * 60 / (tempo * inject_Z r))%Q).
Proof.
  intros r tp Hr Ht. destruct (pm_new_ok r tp Hr Ht) as [p [m [E [V [I [_ F]]]]]]. exists p. split; auto.
  intros ops k Hk. destruct (has_ticks_of m p _ V I F ops) as [A _]. destruct (A k Hk) as [A1 A2]. split; auto.
  intros H. destruct (A2 H) as [t [E1 E2]]. exists t. split; auto. rewrite E2, sum_const by auto. pose proof (inject_pos' r Hr). field. split; lra.
Qed.
Definition nearest_tick (f : Z -> Q) (t : Q) (k : Z) : Prop :=
  0 <= k /\ forall j, 0 <= j -> (Qabsb (t - sum_to f k) <= Qabsb (t - sum_to f j))%Q.
Lemma nearest_mono : forall f t1 t2 k1 k2, (forall i, 0 <= i -> (0 < f i)%Q) -> (t1 < t2)%Q -> nearest_tick f t1 k1 -> nearest_tick f t2 k2 -> k1 <= k2.
Proof.
  intros f t1 t2 k1 k2 P L [H1 N1] [H2 N2]. destruct (Z_lt_le_dec k2 k1) as [C|]; auto. exfalso.
  pose proof (sum_to_mono f k2 k1 P ltac:(lia)). specialize (N1 k2 H2). specialize (N2 k1 H1).
  destruct (Qabsb_spec (t1 - sum_to f k1)) as [[? Z0]|[? Z0]], (Qabsb_spec (t1 - sum_to f k2)) as [[? Z1]|[? Z1]]; rewrite Z0, Z1 in N1;
  destruct (Qabsb_spec (t2 - sum_to f k1)) as [[? Y0]|[? Y0]], (Qabsb_spec (t2 - sum_to f k2)) as [[? Y1]|[? Y1]]; rewrite Y0, Y1 in N2; lra.
Qed.
Lemma time_to_tick_spec : forall p f ops, has_ticks p f -> (forall i, 0 <= i -> (0 < f i)%Q) ->
  let p' := pm_run p ops in
  (forall t, exists k, time_to_tick p' t = Ok k /\ 0 <= k /\ forall j, 0 <= j -> (Qabsb (t - sum_to f k) <= Qabsb (t - sum_to f j))%Q) /\
  (forall k t, 0 <= k -> (t == sum_to f k)%Q -> time_to_tick p' t = Ok k) /\
  (forall t1 t2 k1 k2, (t1 < t2)%Q -> time_to_tick p' t1 = Ok k1 -> time_to_tick p' t2 = Ok k2 -> k1 <= k2).
Proof.
  intros p f ops HT P p'. destruct (HT ops) as [_ N]. fold p' in N. split; auto. split.
  - intros k t Hk E. destruct (N t) as [k' [E' [Hk' N']]]. rewrite E'. f_equal. apply (exact_tick f t); auto.
  - intros t1 t2 k1 k2 L E1 E2. destruct (N t1) as [a [A1 A2]], (N t2) as [b [B1 B2]]. rewrite E1 in A1. rewrite E2 in B1.
    injection A1 as <-. injection B1 as <-. apply (nearest_mono f t1 t2); auto.
Qed.
Lemma C37a : forall r evs last p ops, 0 < r -> tempo_events evs -> 0 <= last -> pm_load r evs last = Ok p ->
  let p' := pm_run p ops in let time := sum_to (tick_length r evs) in
  (forall t, exists k, time_to_tick p' t = Ok k /\ 0 <= k /\ forall j, 0 <= j -> (Qabsb (t - time k) <= Qabsb (t - time j))%Q) /\
  (forall k t, 0 <= k -> (t == time k)%Q -> time_to_tick p' t = Ok k) /\
  (forall t1 t2 k1 k2, (t1 < t2)%Q -> time_to_tick p' t1 = Ok k1 -> time_to_tick p' t2 = Ok k2 -> k1 <= k2).
Proof.
  intros r evs last p ops Hr TE H0 E. destruct (loaded_ticks r evs last Hr TE H0) as [A B].
  destruct (Z_lt_le_dec last MAX_TICK) as [L|L]; [|rewrite (A L) in E; discriminate].
  destruct (B L) as [p1 [E1 HT]]. rewrite E in E1. injection E1 as <-. apply time_to_tick_spec; auto. intros; apply tick_length_pos; auto.
Qed.
Lemma C37b : forall r tempo p ops, 0 < r -> (0 < tempo)%Q -> pm_new r tempo = Ok p ->
  let p' := pm_run p ops in let time := fun k => (inject_Z k * 60 / (tempo * inject_Z r))%Q in
  (forall t, exists k, time_to_tick p' t = Ok k /\ 0 <= k /\ forall j, 0 <= j -> (Qabsb (t - time k) <= Qabsb (t - time j))%Q) /\
  (forall k t, 0 <= k -> (t == time k)%Q -> time_to_tick p' t = Ok k) /\
  (forall t1 t2 k1 k2, (t1 < t2)%Q -> time_to_tick p' t1 = Ok k1 -> time_to_tick p' t2 = Ok k2 -> k1 <= k2).
Proof.
  intros r tp p ops Hr Ht E. destruct (pm_new_ok r tp Hr Ht) as [p1 [m [E1 [V [I [_ F]]]]]]. rewrite E in E1. injection E1 as <-.
  pose proof (inject_pos' r Hr) as Pr.
  destruct (time_to_tick_spec p (fun _ => 60 / (tp * inject_Z r))%Q ops (has_ticks_of m p _ V I F)) as [A [B C]].
  { intros. apply Qlt_shift_div_l; [apply Qmult_lt_0_compat; auto|lra]. }
  assert (EQ : forall k, 0 <= k -> (sum_to (fun _ => 60 / (tp * inject_Z r)) k == inject_Z k * 60 / (tp * inject_Z r))%Q).
  { intros k Hk. rewrite sum_const by auto. field. split; lra. }
  split; [|split; auto].
  - intros t. destruct (A t) as [k [K1 [K2 K3]]]. exists k. split; auto. split; auto. intros j Hj. specialize (K3 j Hj).
    rewrite (Qabsb_comp _ _ (Qplus_comp _ _ (Qeq_refl t) _ _ (Qopp_comp _ _ (EQ k K2)))) in K3.
    rewrite (Qabsb_comp _ _ (Qplus_comp _ _ (Qeq_refl t) _ _ (Qopp_comp _ _ (EQ j Hj)))) in K3. exact K3.
  - intros k t Hk E2. apply B; auto. rewrite EQ by auto. auto.
Qed.
Lemma C39a : forall r evs, 0 < r -> tempo_events evs -> exists m, load_tempo r evs = Ok m /\
  (exists s rest, m = (0, s) :: rest) /\ StronglySorted (fun a b => fst a <= fst b) m /\
  (forall l1 a b l2, m = l1 ++ a :: b :: l2 -> ~ (snd a == snd b)%Q) /\
  (forall j, 0 <= j -> (at_tick m j 0 == tick_length r evs j)%Q).
Proof.
  intros r evs Hr TE. destruct (load_ok r evs Hr TE) as [m [E [[V1 [V2 V3]] [F [NR _]]]]]. exists m. repeat split; auto.
Qed.
Lemma C36c : forall r evs j k, 0 < r -> tempo_events evs -> 0 <= j < k -> (sum_to (tick_length r evs) j < sum_to (tick_length r evs) k)%Q.
Proof. intros. apply sum_to_mono; auto. intros; apply tick_length_pos; auto. Qed.
