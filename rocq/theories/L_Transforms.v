(** Lemmas for P_Transforms.v. *)
From Coq Require Import Sorted Permutation QArith Qround Lia Lqa.
From Verif Require Import PyBase L_Base M_Note M_Events M_Load M_Transforms S_Seq S_Transforms L_Note L_Seq L_Load3.
Open Scope Z_scope.

Lemma wrap_spec : forall n i, (forall k, wrap n i = Some k <-> designates n i k) /\ (wrap n i = None <-> ~ (- Z.of_nat n <= i < Z.of_nat n)).
Proof.
  intros n i. unfold wrap, designates. destruct (Z.leb_spec 0 i), (Z.ltb_spec i (Z.of_nat n)), (Z.leb_spec (- Z.of_nat n) i), (Z.ltb_spec i 0); cbn [andb]; try lia; split; try (split; [discriminate|lia]); try (split; [lia|reflexivity]); intros k; (split; [try discriminate; intros E; injection E as <-; lia|intros [L [E|E]]; try lia; f_equal; lia]).
Qed.
Lemma wrap_in : forall n i, 0 <= i < Z.of_nat n -> wrap n i = Some (Z.to_nat i).
Proof. intros n i H. apply (proj1 (wrap_spec n i)). split; lia. Qed.

Lemma skipn_skipn : forall A a b (l : list A), skipn a (skipn b l) = skipn (b + a) l.
Proof. intros A a b. induction b; intros l; [reflexivity|]. destruct l; cbn; [destruct a; reflexivity|apply IHb]. Qed.
Lemma chunk_nth : forall A n w (l : list A) i, (i < n)%nat -> nth_error (chunk n w l) i = Some (firstn w (skipn (i * w) l)).
Proof.
  induction n; intros w l i L; [lia|]. destruct i; [reflexivity|]. cbn [chunk nth_error]. rewrite IHn by lia. rewrite skipn_skipn. do 3 f_equal.
Qed.
Lemma chunk_len : forall A n w (l : list A), List.length (chunk n w l) = n.
Proof. induction n; intros; cbn; auto. Qed.
Lemma chunk_rows : forall A w (x : list (list A)), Forall (fun r => List.length r = w) x -> chunk (List.length x) w (List.concat x) = x.
Proof.
  intros A w x F. induction F as [|r x E F IH]; [reflexivity|]. cbn [List.concat List.length chunk].
  assert (A1 : firstn w (r ++ List.concat x) = r) by (rewrite <- E, firstn_app, Nat.sub_diag, firstn_O, app_nil_r, firstn_all; reflexivity).
  assert (A2 : skipn w (r ++ List.concat x) = List.concat x) by (rewrite <- E, skipn_app, Nat.sub_diag, skipn_all; reflexivity).
  rewrite A1, A2, IH. reflexivity.
Qed.
Lemma concat_len : forall A w (x : list (list A)), Forall (fun r => List.length r = w) x -> List.length (List.concat x) = (List.length x * w)%nat.
Proof. intros A w x F. induction F; cbn; auto. rewrite app_length. lia. Qed.

Lemma nth_error_ext : forall A (l k : list A), (forall i, nth_error l i = nth_error k i) -> l = k.
Proof.
  induction l as [|x l IH]; intros [|y k] H; auto; try (specialize (H 0%nat); discriminate). f_equal; [specialize (H 0%nat); cbn in H; congruence|]. apply IH. intros i. apply (H (S i)).
Qed.
Lemma degree_spec : forall n l, (forall i, In i l -> 0 <= i < Z.of_nat n) ->
  degree n l = Ok (map (fun i => Z.of_nat (count_occ Z.eq_dec l (Z.of_nat i))) (seq 0 n)).
Proof.
  intros n l H. unfold degree. replace (forallb _ l) with true.
  2:{ symmetry. apply forallb_forall. intros i I. apply H in I. apply andb_true_iff. split; [apply Z.leb_le|apply Z.ltb_lt]; lia. }
  f_equal. assert (G : forall l acc, (forall i, In i l -> 0 <= i < Z.of_nat n) -> List.length acc = n ->
    fold_left (fun acc i => upd_nth acc (Z.to_nat i) (fun v => v + 1)) l acc = map (fun i => nth i acc 0 + Z.of_nat (count_occ Z.eq_dec l (Z.of_nat i))) (seq 0 n)).
  { clear. induction l as [|a l IH]; intros acc H L.
    - cbn [fold_left count_occ]. apply nth_error_ext. intros i. rewrite nth_error_map. destruct (Nat.lt_ge_cases i n) as [Hi|Hi].
      + rewrite (nth_error_nth' (seq 0 n) 0%nat) by (rewrite seq_length; auto). rewrite seq_nth by auto. cbn [option_map Nat.add]. rewrite (nth_error_nth' acc 0) by lia. f_equal. lia.
      + rewrite (proj2 (nth_error_None acc i)) by lia. rewrite (proj2 (nth_error_None (seq 0 n) i)) by (rewrite seq_length; lia). reflexivity.
    - cbn [fold_left]. rewrite IH; [|intros; apply H; right; auto|rewrite upd_nth_len; auto]. apply map_ext_in. intros i I. apply in_seq in I.
      assert (HA := H a (or_introl eq_refl)). cbn [count_occ]. assert (N : nth i (upd_nth acc (Z.to_nat a) (fun v => v + 1)) 0 = nth i acc 0 + (if Z.eq_dec a (Z.of_nat i) then 1 else 0)).
      { rewrite <- !nth_default_eq. unfold nth_default. rewrite upd_nth_get. destruct (Nat.eqb_spec i (Z.to_nat a)).
        - subst i. destruct (Z.eq_dec a (Z.of_nat (Z.to_nat a))); [|lia]. destruct (nth_error acc (Z.to_nat a)) eqn:E; [reflexivity|]. apply nth_error_None in E. lia.
        - destruct (Z.eq_dec a (Z.of_nat i)); [lia|]. destruct (nth_error acc i); lia. }
      rewrite N. destruct (Z.eq_dec a (Z.of_nat i)); lia. }
  rewrite G; [|exact H|apply repeat_length]. apply map_ext_in. intros i I. rewrite nth_repeat. lia.
Qed.
Lemma degree_bad : forall n l i, In i l -> ~ 0 <= i < Z.of_nat n -> degree n l = Err RuntimeError.
Proof.
  intros n l i I N. unfold degree. destruct (forallb _ l) eqn:E; [|reflexivity]. rewrite forallb_forall in E. apply E in I. apply andb_true_iff in I as [A B]. apply Z.leb_le in A. apply Z.ltb_lt in B. lia.
Qed.

Lemma add_degree_ok : forall d l n w, d_ei d = EPairs l -> num_nodes d = n -> (0 < n)%nat -> List.length (List.concat (d_x d)) = (n * w)%nat ->
  (forall a b, In (a, b) l -> 0 <= a < Z.of_nat n) ->
  exists x', add_degree d = (Ok tt, set_x (set_directed d) x') /\ List.length x' = n /\
    forall i, (i < n)%nat -> nth_error x' i = Some (firstn w (skipn (i * w) (List.concat (d_x d))) ++ [inject_Z (Z.of_nat (out_degree l i))]).
Proof.
  intros d l n w E N P L R. unfold add_degree. rewrite N, E. unfold reshape. rewrite L. destruct n as [|n]; [lia|]. replace (Nat.modulo (S n * w) (S n)) with 0%nat by (rewrite Nat.mul_comm, Nat.mod_mul; lia).
  rewrite Nat.eqb_refl. replace (Nat.div (S n * w) (S n)) with w by (rewrite Nat.mul_comm, Nat.div_mul; lia). rewrite degree_spec.
  2:{ intros i I. apply in_map_iff in I as [[a b] [<- I]]. apply (R a b I). }
  eexists. split; [reflexivity|]. split; [rewrite map_length, combine_length, chunk_len, map_length, seq_length; lia|].
  intros i Hi. rewrite nth_error_map. assert (C : nth_error (combine (chunk (S n) w (List.concat (d_x d))) (map (fun i => Z.of_nat (count_occ Z.eq_dec (map fst l) (Z.of_nat i))) (seq 0 (S n)))) i
    = Some (firstn w (skipn (i * w) (List.concat (d_x d))), Z.of_nat (out_degree l i))).
  { generalize (chunk_nth Q (S n) w (List.concat (d_x d)) i Hi). assert (M : nth_error (map (fun i => Z.of_nat (count_occ Z.eq_dec (map fst l) (Z.of_nat i))) (seq 0 (S n))) i = Some (Z.of_nat (out_degree l i))).
    { rewrite nth_error_map. rewrite (nth_error_nth' _ 0%nat) by (rewrite seq_length; auto). rewrite seq_nth by auto. reflexivity. }
    revert M. generalize (map (fun i => Z.of_nat (count_occ Z.eq_dec (map fst l) (Z.of_nat i))) (seq 0 (S n))). generalize (chunk (S n) w (List.concat (d_x d))).
    clear. generalize (firstn w (skipn (i * w) (List.concat (d_x d)))) (Z.of_nat (out_degree l i)). intros r z a. revert i. induction a as [|x a IH]; intros [|i] [|y b]; cbn; try discriminate.
    - intros A B. injection A as ->. injection B as ->. reflexivity.
    - intros A B. apply IH; auto. }
  rewrite C. reflexivity.
Qed.
Lemma add_degree_rows : forall d l n w, d_ei d = EPairs l -> num_nodes d = n -> (0 < n)%nat -> List.length (d_x d) = n -> Forall (fun r => List.length r = w) (d_x d) ->
  (forall a b, In (a, b) l -> 0 <= a < Z.of_nat n) ->
  exists x', add_degree d = (Ok tt, set_x (set_directed d) x') /\ List.length x' = n /\
    forall i r, nth_error (d_x d) i = Some r -> nth_error x' i = Some (r ++ [inject_Z (Z.of_nat (out_degree l i))]).
Proof.
  intros d l n w E N P L F R. destruct (add_degree_ok d l n w E N P) as [x' [A [B C]]]; auto. { rewrite (concat_len _ w), L; auto. }
  exists x'. split; [exact A|]. split; [exact B|]. intros i r I. assert (Hi : (i < n)%nat) by (rewrite <- L; apply nth_error_Some; congruence). rewrite C by auto. do 2 f_equal.
  pose proof (chunk_nth Q n w (List.concat (d_x d)) i Hi) as H. rewrite <- L in H at 1. rewrite chunk_rows in H by auto. congruence.
Qed.
Lemma add_degree_bad : forall d l a b, d_ei d = EPairs l -> In (a, b) l -> ~ 0 <= a < Z.of_nat (num_nodes d) -> add_degree d = (Err RuntimeError, d).
Proof.
  intros d l a b E I N. unfold add_degree. unfold reshape. destruct (num_nodes d) as [|n] eqn:ND; [reflexivity|]. destruct (Nat.eqb _ 0); [|reflexivity]. rewrite E. rewrite (degree_bad _ _ a); auto. apply in_map_iff. exists (a, b). auto.
Qed.

(** ** Selections *)
Lemma in_nats_iff : forall l i, in_nats l i = true <-> In i l.
Proof. intros. unfold in_nats. rewrite existsb_exists. split; [intros [x [H E]]; apply Nat.eqb_eq in E; subst; auto|intros H; exists i; split; auto; apply Nat.eqb_refl]. Qed.
Lemma take_ok : forall A (l : list A) ks, (forall i, In i ks -> (i < List.length l)%nat) -> exists l', take l ks = Ok l' /\ picked ks l l'.
Proof.
  intros A l ks. induction ks as [|k ks IH]; intros H; [exists []; split; reflexivity|]. cbn [take]. destruct (nth_error l k) as [x|] eqn:E; [|apply nth_error_None in E; specialize (H k (or_introl eq_refl)); lia].
  destruct IH as [l' [T P]]; [intros; apply H; right; auto|]. rewrite T. cbn [bind]. eexists. split; [reflexivity|]. unfold picked in *. cbn [map]. rewrite E, P. reflexivity.
Qed.
Lemma picked_len : forall A ks (l l' : list A), picked ks l l' -> List.length l' = List.length ks.
Proof. intros A ks l l' P. unfold picked in P. apply (f_equal (@List.length _)) in P. rewrite !map_length in P. exact P. Qed.
Lemma where_selects : forall A (p : A -> Prop) f (l : list A), (forall x, In x l -> (f x = true <-> p x)) -> selects p l (where_true (map f l) l).
Proof.
  intros A p f l. induction l as [|x l IH]; intros H; [constructor|]. cbn [map where_true]. destruct (f x) eqn:E.
  - apply sel_take; [apply H; [left; auto|auto]|apply IH; intros; apply H; right; auto].
  - apply sel_skip; [intros P; apply H in P; [congruence|left; auto]|apply IH; intros; apply H; right; auto].
Qed.
Lemma where_combine : forall A B m (l : list A) (k : list B), List.length l = List.length k -> where_true m (combine l k) = combine (where_true m l) (where_true m k).
Proof. induction m as [|b m IH]; intros [|x l] [|y k] H; try discriminate; cbn; auto. destruct b; cbn; rewrite IH by auto; auto. Qed.
Lemma where_len : forall A B m (l : list A) (k : list B), List.length l = List.length k -> List.length (where_true m l) = List.length (where_true m k).
Proof. induction m as [|b m IH]; intros [|x l] [|y k] H; try discriminate; cbn; auto. destruct b; cbn; auto. Qed.
Lemma map_combine_fst : forall A B C (f : A -> C) (l : list A) (k : list B), List.length l = List.length k -> map f l = map (fun xy => f (fst xy)) (combine l k).
Proof. induction l as [|x l IH]; intros [|y k] H; try discriminate; cbn; auto. f_equal. apply IH. auto. Qed.
Lemma where_nths : forall A (l : list A) f, picked (filter f (seq 0 (List.length l))) l (where_true (map f (seq 0 (List.length l))) l).
Proof.
  intros A l f. unfold picked. assert (G : forall (k pre : list A), map Some (where_true (map f (seq (List.length pre) (List.length k))) k) = map (nth_error (pre ++ k)) (filter f (seq (List.length pre) (List.length k)))).
  { induction k as [|x k IH]; intros pre; [reflexivity|]. cbn [List.length seq map where_true filter]. specialize (IH (pre ++ [x])). rewrite app_length, Nat.add_1_r, <- app_assoc in IH. cbn [app] in IH.
    destruct (f (List.length pre)); cbn [map]; rewrite IH; auto. f_equal. rewrite nth_error_app2, Nat.sub_diag by lia. reflexivity. }
  apply (G l []).
Qed.
Lemma filter_numbers : forall n f (p : nat -> Prop), (forall i, (i < n)%nat -> (f i = true <-> p i)) -> numbers n p (filter f (seq 0 n)).
Proof.
  intros n f p H. split.
  - assert (G : forall n a, StronglySorted lt (filter f (seq a n))).
    { clear. induction n; intros a; [constructor|]. cbn [seq filter]. assert (F : Forall (lt a) (filter f (seq (S a) n))) by (apply Forall_forall; intros x I; apply filter_In in I as [I _]; apply in_seq in I; lia). destruct (f a); auto. constructor; auto. }
    apply G.
  - intros i. rewrite filter_In, in_seq. split; [intros [A B]; split; [lia|apply H; auto; lia]|intros [A B]; split; [lia|apply H; auto]].
Qed.
(** The mask of kept nodes and the edges it selects. *)
Lemma edge_mask_ok : forall n f l (ks : list nat), edges_in n l -> (forall i, (i < n)%nat -> (f i = true <-> In i ks)) ->
  exists g, edge_mask (map f (seq 0 n)) l = Ok (map g l) /\ forall e, In e l -> (g e = true <-> among ks e).
Proof.
  intros n f l ks H K. unfold edge_mask. rewrite map_length, seq_length.
  assert (A : forall e, In e l -> wrap n (fst e) = Some (Z.to_nat (fst e)) /\ wrap n (snd e) = Some (Z.to_nat (snd e))).
  { intros [a b] I. apply H in I. split; apply wrap_in; tauto. }
  replace (forallb _ l) with true. 2:{ symmetry. apply forallb_forall. intros e I. apply A in I as [-> ->]. reflexivity. }
  eexists. split; [reflexivity|]. intros e I. cbv beta. destruct (A e I) as [-> ->]. destruct e as [a b]. cbn [fst snd]. pose proof (H a b I) as [Ha Hb].
  assert (N : forall i, (i < n)%nat -> (nth i (map f (seq 0 n)) false = true <-> In i ks)).
  { intros i Hi. erewrite nth_indep with (d' := f 0%nat) by (rewrite map_length, seq_length; auto). rewrite map_nth, seq_nth by auto. apply K. auto. }
  rewrite andb_true_iff, !N by lia. unfold among. split.
  - intros [P R]. exists (Z.to_nat a), (Z.to_nat b). rewrite !Z2Nat.id by lia. auto.
  - intros [i [j [E [P R]]]]. injection E as -> ->. rewrite !Nat2Z.id. auto.
Qed.
Lemma edge_mask_bad : forall n m l a b, List.length m = n -> In (a, b) l -> ~ (- Z.of_nat n <= a < Z.of_nat n) \/ ~ (- Z.of_nat n <= b < Z.of_nat n) -> edge_mask m l = Err IndexError.
Proof.
  intros n m l a b L I H. unfold edge_mask. rewrite L. destruct (forallb _ l) eqn:E; [|reflexivity]. rewrite forallb_forall in E. apply E in I. cbn [fst snd] in I.
  destruct H as [H|H]; apply (proj2 (wrap_spec n _)) in H; rewrite H in I; [|destruct (wrap n a)]; discriminate.
Qed.
Lemma msel_ok : forall A m (l : list A), List.length m = List.length l -> msel m l = Ok (where_true m l).
Proof. intros. unfold msel. rewrite H, Nat.eqb_refl. reflexivity. Qed.

(** ** Dropping nodes *)
Lemma drops_le : forall p n, (0 <= p)%Q -> (p <= 1)%Q -> 0 <= Qfloor (p * inject_Z (Z.of_nat n)) <= Z.of_nat n.
Proof.
  intros p n A B. assert (N : (0 <= inject_Z (Z.of_nat n))%Q) by (change 0%Q with (inject_Z 0); rewrite <- Zle_Qle; lia). split.
  - change 0 with (Qfloor 0). apply Qfloor_resp_le. apply Qmult_le_0_compat; auto.
  - transitivity (Qfloor (inject_Z (Z.of_nat n))); [|rewrite Qfloor_Z; lia]. apply Qfloor_resp_le. rewrite <- (Qmult_1_l (inject_Z (Z.of_nat n))) at 2. apply Qmult_le_compat_r; auto.
Qed.
Lemma trunc_floor : forall x, (0 <= x)%Q -> Qtrunc x = Qfloor x.
Proof. intros x H. unfold Qtrunc. apply Qle_bool_iff in H. rewrite H. reflexivity. Qed.
Lemma prefix_nat : forall A k (l : list A), 0 <= k -> prefix k l = firstn (Z.to_nat k) l.
Proof. intros. unfold prefix. destruct (Z.ltb_spec k 0); [lia|reflexivity]. Qed.
Lemma kept_count : forall n l ks, NoDup l -> (forall i, In i l -> (i < n)%nat) -> numbers n (fun i => ~ In i l) ks -> (List.length ks + List.length l)%nat = n.
Proof.
  intros n l ks ND B [SS K]. rewrite <- app_length. transitivity (List.length (seq 0 n)); [|apply seq_length]. apply Permutation_length. apply NoDup_Permutation.
  - assert (NK : NoDup ks). { clear - SS. induction SS as [|a l S IH F]; constructor; auto. intros I. rewrite Forall_forall in F. apply F in I. lia. }
    assert (D : forall x, In x ks -> ~ In x l) by (intros x I; apply K in I; tauto). clear - NK ND D. induction ks as [|a ks IH]; [exact ND|]. inversion NK; subst. cbn. constructor.
    + intros I. apply in_app_or in I as [I|I]; [auto|]. apply (D a); [left|]; auto.
    + apply IH; auto. intros x I. apply D. right. auto.
  - apply seq_NoDup.
  - intros x. rewrite in_app_iff, in_seq, K. split; [intros [[A C]|A]; [lia|apply B in A; lia]|]. intros H. destruct (in_dec Nat.eq_dec x l); [auto|left; split; [lia|auto]].
Qed.

Lemma node_drop_k : forall p k perm d n l, prefix (Qtrunc (p * inject_Z (Z.of_nat n))) perm = firstn k perm -> (k <= n)%nat -> Permutation perm (seq 0 n) -> well_formed n l d ->
  (match d_ea d with Some a => List.length a = List.length l | None => True end) ->
  exists ks d', node_drop p perm d = (Ok tt, d') /\
    numbers n (fun i => ~ In i (firstn (k) perm)) ks /\ (List.length ks + k)%nat = n /\
    picked ks (d_x d) (d_x d') /\ opicked ks (d_y d) (d_y d') /\ opicked ks (d_train d) (d_train d') /\ opicked ks (d_val d) (d_val d') /\ opicked ks (d_test d) (d_test d') /\
    num_nodes d' = List.length ks /\ same_rest d d' /\
    match d_ea d with
    | Some a => exists l' a', d_ei d' = EPairs l' /\ d_ea d' = Some a' /\ List.length a' = List.length l' /\ selects (fun ea => among ks (fst ea)) (combine l a) (combine l' a')
    | None => exists l', selects (among ks) l l' /\ d_ei d' = EFlat (map fst l') /\ d_ea d' = Some (map (fun ab => inject_Z (snd ab)) l')
    end.
Proof.
  intros p k perm d n l PK KN PM [N [LX [E [R [[y [Y LY]] [[m1 [M1 L1]] [[m2 [M2 L2]] [m3 [M3 L3]]]]]]]]] EA.
  set (drop := firstn k perm). set (f := fun i => negb (in_nats drop i)). set (ks := filter f (seq 0 n)).
  assert (FK : forall i, f i = true <-> ~ In i drop). { intros i. unfold f. rewrite negb_true_iff. rewrite <- in_nats_iff. destruct (in_nats drop i); split; try congruence. }
  assert (NK : numbers n (fun i => ~ In i drop) ks) by (apply filter_numbers; intros; apply FK).
  assert (LK : (List.length ks + k)%nat = n).
  { assert (LD : List.length drop = k) by (unfold drop; rewrite firstn_length, (Permutation_length PM), seq_length; lia). rewrite <- LD. apply kept_count; auto.
    - unfold drop. assert (X : NoDup perm) by (apply (Permutation_NoDup (Permutation_sym PM)), seq_NoDup). rewrite <- (firstn_skipn k perm) in X. clear - X. induction (firstn k perm) as [|a q IH]; [constructor|]. inversion X; subst. constructor; auto. intros I. apply H1. apply in_or_app. auto.
    - intros i I. assert (X : In i perm) by (rewrite <- (firstn_skipn k perm); apply in_or_app; auto). apply (Permutation_in _ PM) in X. apply in_seq in X. lia. }
  assert (KB : forall i, In i ks -> (i < n)%nat) by (intros i I; apply NK in I; tauto).
  unfold node_drop. rewrite N, E, PK. fold drop. fold f. fold ks. unfold filter_adj. cbn [adj_size bind].
  replace (forallb (fun i => Nat.ltb i n) ks) with true by (symmetry; apply forallb_forall; intros i I; apply Nat.ltb_lt; auto).
  destruct (edge_mask_ok n (in_nats ks) l ks R) as [g [G1 G2]]; [intros; apply in_nats_iff|]. rewrite G1. cbn [bind].
  assert (LM : List.length (map g l) = List.length l) by apply map_length.
  rewrite (msel_ok _ _ l) by auto. cbn [bind].
  destruct (take_ok _ (d_x d) ks) as [x [X1 X2]]; [rewrite LX; auto|]. destruct (take_ok _ y ks) as [y' [Y1 Y2]]; [rewrite LY; auto|].
  destruct (take_ok _ m1 ks) as [n1 [A1 A2]]; [rewrite L1; auto|]. destruct (take_ok _ m2 ks) as [n2 [B1 B2]]; [rewrite L2; auto|]. destruct (take_ok _ m3 ks) as [n3 [C1 C2]]; [rewrite L3; auto|].
  exists ks. destruct (d_ea d) as [a|] eqn:EE.
  - rewrite (msel_ok _ _ a) by lia. cbn [bind]. rewrite X1, Y, M1, M2, M3. cbn [take_attr]. rewrite Y1, A1, B1, C1. cbn [bind take_attr]. eexists. split; [reflexivity|]. cbn.
    split; [exact NK|]. split; [exact LK|]. split; [exact X2|]. split; [exists y, y'; auto|]. split; [exists m1, n1; auto|]. split; [exists m2, n2; auto|]. split; [exists m3, n3; auto|].
    split; [apply (picked_len _ _ _ _ X2)|]. split; [repeat split|]. eexists. eexists. split; [reflexivity|]. split; [reflexivity|]. split; [apply where_len; auto|]. rewrite <- where_combine by auto.
    rewrite (map_combine_fst _ _ _ g l a) by auto. apply where_selects. intros [e q] I. cbn. apply G2. apply in_combine_l in I. exact I.
  - rewrite X1, Y, M1, M2, M3. cbn [take_attr]. rewrite Y1, A1, B1, C1. cbn [bind take_attr]. eexists. split; [reflexivity|]. cbn.
    split; [exact NK|]. split; [exact LK|]. split; [exact X2|]. split; [exists y, y'; auto|]. split; [exists m1, n1; auto|]. split; [exists m2, n2; auto|]. split; [exists m3, n3; auto|].
    split; [apply (picked_len _ _ _ _ X2)|]. split; [repeat split|]. eexists. split; [apply where_selects; intros e I; apply G2; exact I|]. split; reflexivity.
Qed.
Lemma node_drop_ok : forall p perm d n l, (0 <= p)%Q -> (p <= 1)%Q -> Permutation perm (seq 0 n) -> well_formed n l d ->
  (match d_ea d with Some a => List.length a = List.length l | None => True end) ->
  exists ks d', node_drop p perm d = (Ok tt, d') /\
    numbers n (fun i => ~ In i (firstn (drops p n) perm)) ks /\ (List.length ks + drops p n)%nat = n /\
    picked ks (d_x d) (d_x d') /\ opicked ks (d_y d) (d_y d') /\ opicked ks (d_train d) (d_train d') /\ opicked ks (d_val d) (d_val d') /\ opicked ks (d_test d) (d_test d') /\
    num_nodes d' = List.length ks /\ same_rest d d' /\
    match d_ea d with
    | Some a => exists l' a', d_ei d' = EPairs l' /\ d_ea d' = Some a' /\ List.length a' = List.length l' /\ selects (fun ea => among ks (fst ea)) (combine l a) (combine l' a')
    | None => exists l', selects (among ks) l l' /\ d_ei d' = EFlat (map fst l') /\ d_ea d' = Some (map (fun ab => inject_Z (snd ab)) l')
    end.
Proof.
  intros p perm d n l P1 P2 PM W EA. destruct (drops_le p n P1 P2) as [D1 D2]. apply node_drop_k; auto; [|unfold drops; lia].
  assert (PN : (0 <= p * inject_Z (Z.of_nat n))%Q) by (apply Qmult_le_0_compat; auto; change 0%Q with (inject_Z 0); rewrite <- Zle_Qle; lia).
  rewrite (trunc_floor _ PN), prefix_nat by auto. reflexivity.
Qed.
Lemma Qtrunc_z : forall p n z, ((0 <= p)%Q /\ z = Qfloor (p * inject_Z (Z.of_nat n))) \/ ((p < 0)%Q /\ z = Qceiling (p * inject_Z (Z.of_nat n))) -> Qtrunc (p * inject_Z (Z.of_nat n)) = z.
Proof.
  intros p n z [[P ->]|[P ->]]; assert (NN : (0 <= inject_Z (Z.of_nat n))%Q) by (change 0%Q with (inject_Z 0); rewrite <- Zle_Qle; lia).
  - apply trunc_floor. apply Qmult_le_0_compat; auto.
  - unfold Qtrunc. destruct (Qle_bool 0 (p * inject_Z (Z.of_nat n))) eqn:E; auto. apply Qle_bool_iff in E.
    assert (X : (p * inject_Z (Z.of_nat n) == 0)%Q). { assert (p * inject_Z (Z.of_nat n) <= 0)%Q; [|lra]. assert (0 <= - p * inject_Z (Z.of_nat n))%Q by (apply Qmult_le_0_compat; lra). lra. }
    rewrite (Qfloor_comp _ _ X), (Qceiling_comp _ _ X). reflexivity.
Qed.
Lemma node_drop_any : forall p perm d n l z k, Permutation perm (seq 0 n) -> well_formed n l d ->
  (match d_ea d with Some a => List.length a = List.length l | None => True end) ->
  ((0 <= p)%Q /\ z = Qfloor (p * inject_Z (Z.of_nat n))) \/ ((p < 0)%Q /\ z = Qceiling (p * inject_Z (Z.of_nat n))) ->
  (0 <= z /\ Z.of_nat k = Z.min z (Z.of_nat n)) \/ (z < 0 /\ Z.of_nat k = Z.max 0 (Z.of_nat n + z)) ->
  exists ks d', node_drop p perm d = (Ok tt, d') /\
    numbers n (fun i => ~ In i (firstn (k) perm)) ks /\ (List.length ks + k)%nat = n /\
    picked ks (d_x d) (d_x d') /\ opicked ks (d_y d) (d_y d') /\ opicked ks (d_train d) (d_train d') /\ opicked ks (d_val d) (d_val d') /\ opicked ks (d_test d) (d_test d') /\
    num_nodes d' = List.length ks /\ same_rest d d' /\
    match d_ea d with
    | Some a => exists l' a', d_ei d' = EPairs l' /\ d_ea d' = Some a' /\ List.length a' = List.length l' /\ selects (fun ea => among ks (fst ea)) (combine l a) (combine l' a')
    | None => exists l', selects (among ks) l l' /\ d_ei d' = EFlat (map fst l') /\ d_ea d' = Some (map (fun ab => inject_Z (snd ab)) l')
    end.
Proof.
  intros p perm d n l z k PM W EA PZ KZ. pose proof (Permutation_length PM) as PL. rewrite seq_length in PL. apply node_drop_k; auto; [|lia]. rewrite (Qtrunc_z p n z PZ). unfold prefix.
  destruct (Z.ltb_spec z 0); destruct KZ as [[K1 K2]|[K1 K2]]; try lia.
  - rewrite PL. f_equal. lia.
  - destruct (Z_le_gt_dec z (Z.of_nat n)); [f_equal; lia|]. rewrite !firstn_all2 by lia. reflexivity.
Qed.
(** A kept node keeps its position exactly if no node before it was dropped. *)
Lemma numbers_fixed : forall n p ks a, numbers n p ks -> (a < n)%nat -> p a -> (nth_error ks a = Some a <-> forall i, (i < a)%nat -> p i).
Proof.
  intros n p ks a [SS K] A P.
  assert (G : forall ks b, StronglySorted lt ks -> Forall (le b) ks -> forall j k, nth_error ks j = Some k -> (b + j <= k)%nat).
  { clear. intros ks b SS. revert b. induction SS as [|x l SS IH F]; intros b B j k; [destruct j; discriminate|]. inversion B as [|? ? Bx Bl]; subst. destruct j; cbn; [intros E; injection E as <-; lia|].
    intros E. assert (X : Forall (le (S b)) l) by (eapply Forall_impl; [|exact F]; cbn; intros; lia). specialize (IH (S b) X j k E). lia. }
  assert (IJ : forall j k v, nth_error ks j = Some v -> nth_error ks k = Some v -> j = k).
  { clear - SS. induction SS as [|x l SS IH F]; intros j k v; [destruct j; discriminate|]. rewrite Forall_forall in F. destruct j, k; cbn; auto.
    - intros E1 E2. injection E1 as <-. apply nth_error_In in E2. apply F in E2. lia.
    - intros E1 E2. injection E2 as <-. apply nth_error_In in E1. apply F in E1. lia.
    - intros E1 E2. f_equal. apply (IH j k v); auto. }
  assert (F0 : Forall (le 0) ks) by (apply Forall_forall; intros; lia).
  split.
  - intros E i Hi. destruct (nth_error ks i) as [v|] eqn:V; [|apply nth_error_None in V; assert (a < List.length ks)%nat by (apply nth_error_Some; congruence); lia].
    assert (v = i).
    { destruct (Nat.eq_dec v i); auto. exfalso. pose proof (G ks 0%nat SS F0 i v V). apply nth_error_split in V as [l1 [l2 [V1 V2]]]. subst ks.
      rewrite nth_error_app2 in E by lia. rewrite V2 in E. destruct (a - i)%nat as [|d] eqn:D; [lia|]. cbn in E. 
      assert (S2 : StronglySorted lt (v :: l2)) by (clear - SS; induction l1; [exact SS|inversion SS; auto]). inversion S2 as [|? ? S3 S4]; subst.
      assert (X : Forall (le (S v)) l2) by (eapply Forall_impl; [|exact S4]; cbn; intros; lia). pose proof (G l2 (S v) S3 X d a E). lia. }
    subst v. apply nth_error_In in V. apply K in V. tauto.
  - intros H. assert (Q : forall m, (m <= a)%nat -> nth_error ks m = Some m).
    { induction m as [m IH] using (well_founded_induction lt_wf). intros Hm. assert (PM : In m ks) by (apply K; split; [lia|]; destruct (Nat.eq_dec m a); [subst; auto|apply H; lia]).
      apply In_nth_error in PM as [j J]. pose proof (G ks 0%nat SS F0 j m J). destruct (Nat.eq_dec j m); [subst; auto|]. exfalso. specialize (IH j ltac:(lia) ltac:(lia)). rewrite J in IH. injection IH. lia. }
    apply Q. lia.
Qed.

(** ** Dropping edges *)
Lemma edge_drop_ok : forall p draws d l, d_ei d = EPairs l -> List.length draws = List.length l ->
  (match d_ea d with Some a => List.length a = List.length l | None => True end) ->
  d_pos d = Some None -> d_neg d <> None -> d_train d <> None -> d_val d <> None -> d_test d <> None -> d_hash d <> None ->
  exists d' l', edge_drop p draws d = Ok d' /\ d_ei d' = EPairs l' /\
    selects (fun er => (p <= snd er)%Q) (combine l draws) (combine l' (filter (Qle_bool p) draws)) /\ List.length l' = List.length (filter (Qle_bool p) draws) /\
    d_x d' = d_x d /\ d_y d' = d_y d /\ d_train d' = d_train d /\ d_val d' = d_val d /\ d_test d' = d_test d /\ d_hash d' = d_hash d /\ d_posi d' = None /\ d_negi d' = None /\
    match d_ea d with
    | Some a => exists a', d_ea d' = Some a' /\ selects (fun ear => (p <= snd ear)%Q) (combine (combine l a) draws) (combine (combine l' a') (filter (Qle_bool p) draws)) /\ List.length a' = List.length l'
    | None => d_ea d' = None
    end.
Proof.
  intros p draws d l E L EA PO NE T V TE H. unfold edge_drop. rewrite E, PO. destruct (d_neg d) as [neg|]; [|congruence]. destruct (d_train d) as [tr|]; [|congruence]. destruct (d_val d) as [va|]; [|congruence]. destruct (d_test d) as [te|]; [|congruence]. destruct (d_hash d) as [h|]; [|congruence].
  rewrite msel_ok by (rewrite map_length; auto). cbn [bind opt_get].
  assert (WF : forall k, where_true (map (fun r => Qle_bool p r) k) k = filter (Qle_bool p) k) by (induction k as [|x k IH]; cbn; auto; rewrite IH; reflexivity).
  assert (MS : forall A (k : list A), List.length k = List.length draws -> map (fun r => Qle_bool p r) draws = map (fun er => Qle_bool p (snd er)) (combine k draws)).
  { intros A k. revert k. induction draws as [|r q IH]; intros [|x k]; cbn; try discriminate; auto. intros X. f_equal. specialize (IH [] ) || idtac. clear IH. injection X as X. clear - X. revert k X. induction q as [|r q IH]; intros [|x k] X; try discriminate; cbn; auto. f_equal. apply IH. auto. }
  assert (SEL : forall A (k : list A), List.length k = List.length draws -> selects (fun er => (p <= snd er)%Q) (combine k draws) (combine (where_true (map (fun r => Qle_bool p r) draws) k) (filter (Qle_bool p) draws))).
  { intros A k LK. rewrite <- WF. rewrite <- where_combine by auto. rewrite (MS A k LK). apply where_selects. intros [x r] _. cbn. apply Qle_bool_iff. }
  destruct (d_ea d) as [a|] eqn:EE.
  - rewrite msel_ok by (rewrite map_length; lia). cbn [bind]. eexists. eexists. split; [reflexivity|]. cbn. split; [reflexivity|]. split; [apply SEL; auto|]. split; [rewrite <- WF; apply where_len; auto|].
    do 8 (split; [reflexivity|]). eexists. split; [reflexivity|]. split; [|apply where_len; auto].
    rewrite <- where_combine by auto. apply SEL. rewrite combine_length. lia.
  - eexists. eexists. split; [reflexivity|]. cbn. split; [reflexivity|]. split; [apply SEL; auto|]. split; [rewrite <- WF; apply where_len; auto|]. repeat (split; [reflexivity|]). reflexivity.
Qed.
Lemma edge_drop_missing : forall p draws d, d_pos d = None -> exists e, edge_drop p draws d = Err e.
Proof.
  intros p draws d H. unfold edge_drop. destruct (d_ei d) as [l|]; [|eauto]. rewrite H. destruct (msel _ l); cbn; [|eauto]. destruct (d_ea d) as [a0|]; cbn; [destruct (msel _ a0); cbn; eauto|eauto].
Qed.

(** ** Removing nodes *)
Lemma remove_ok : forall r chosen d n l, (0 <= r)%Q -> (r <= 1)%Q -> well_formed n l d ->
  exists ks d', remove_nodes r chosen d = (Ok tt, d') /\ numbers n (fun i => ~ In i chosen) ks /\ picked ks (d_x d) (d_x d') /\
    (exists l', d_ei d' = EPairs l' /\ selects (among ks) l l') /\
    d_ea d' = d_ea d /\ d_y d' = d_y d /\ d_train d' = d_train d /\ d_val d' = d_val d /\ d_test d' = d_test d /\ d_num d' = d_num d /\ same_rest d d'.
Proof.
  intros r chosen d n l P1 P2 [N [LX [E [R _]]]]. destruct (drops_le r n P1 P2) as [D1 D2].
  assert (PN : (0 <= inject_Z (Z.of_nat n) * r)%Q) by (apply Qmult_le_0_compat; auto; change 0%Q with (inject_Z 0); rewrite <- Zle_Qle; lia).
  assert (T : Qtrunc (inject_Z (Z.of_nat n) * r) = Qfloor (r * inject_Z (Z.of_nat n))) by (rewrite trunc_floor by auto; apply Qfloor_comp; ring).
  unfold remove_nodes. rewrite N, T. cbv zeta. destruct (Z.ltb_spec (Qfloor (r * inject_Z (Z.of_nat n))) 0); [lia|]. destruct (Z.ltb_spec (Z.of_nat n) (Qfloor (r * inject_Z (Z.of_nat n)))); [lia|]. cbn [orb].
  set (f := fun i => negb (in_nats chosen i)). assert (FK : forall i, f i = true <-> ~ In i chosen). { intros i. unfold f. rewrite negb_true_iff. rewrite <- in_nats_iff. destruct (in_nats chosen i); split; try congruence. }
  set (ks := filter f (seq 0 n)). assert (NK : numbers n (fun i => ~ In i chosen) ks) by (apply filter_numbers; intros; apply FK).
  rewrite msel_ok by (rewrite map_length, seq_length; auto). rewrite E. destruct (edge_mask_ok n f l ks R) as [g [G1 G2]].
  { intros i Hi. rewrite FK. split; [intros; apply NK; auto|intros I; apply NK in I; tauto]. }
  rewrite G1. cbn [bind]. rewrite msel_ok by apply map_length. exists ks. eexists. split; [reflexivity|]. cbn. split; [exact NK|]. split; [unfold ks; rewrite <- LX; apply where_nths|].
  split; [eexists; split; [reflexivity|]; apply where_selects; exact G2|]. repeat (split; [reflexivity|]). repeat split.
Qed.
