(** Further theorems about C05 (deleting a slice), C56 (node drops that fail half-way), C58 (one-hot depth) C213 (errors in doubles) and C08 (points). *)
From Coq Require Import Lia Lqa Bool Permutation QArith Qround.
From Verif Require Import PyBase L_Base M_Interval M_SortedDict S_Interval S_Dict L_Interval L_SortedIntervalDict P_SortedDict M_Load M_Transforms S_Seq S_Transforms S_Drop L_Transforms P_Transforms M_Float L_Float L_Snap P_Rounding M_Utils M_UtilsF P_UtilsF M_FloatInterval S_FloatInterval P_FloatInterval.
Open Scope Z_scope.

(** C05: deleting a slice of positions leaves the dictionary as it is in every case; it passes silently
    exactly if the slice selects no key (it is empty, or starts behind the last key) and raises an
    AttributeError otherwise. *)
Theorem C05_delete_slice : forall (V : Type) (d : sid V) i j,
  (sid_del_slice V d i j = (Ok tt, d) <-> (j <= i)%nat \/ (List.length (sd_keys_of d) <= i)%nat) /\
  (sid_del_slice V d i j = (Err AttributeError, d) <-> (i < j)%nat /\ (i < List.length (sd_keys_of d))%nat).
Proof.
  intros V d i j. unfold sid_del_slice, sd_keys_of, sid_del_interval.
  pose proof (skipn_length i (sd_keys d)) as SL. pose proof (firstn_length (j - i) (skipn i (sd_keys d))) as FL. rewrite SL in FL.
  destruct (firstn (j - i) (skipn i (sd_keys d))); cbn in FL; split; split; intro H; try discriminate; try reflexivity; lia.
Qed.
Print Assumptions C05_delete_slice.
Example C05_delete_slice_case : let d := sid_run Z [SidSet (mkI 5 9) 1; SidSet (mkI 0 4) 2; SidSet (mkI 20 30) 3] in
  map (fun ab => fst (sid_del_slice Z d (fst ab) (snd ab))) [(0, 3); (2, 9); (1, 1); (3, 4)]%nat = [Err AttributeError; Err AttributeError; Ok tt; Ok tt].
Proof. reflexivity. Qed.

(** C58: a negative depth is refused with a ValueError, whatever the indices; a depth that is not negative never is. *)
Theorem C58_depth : forall indices depth,
  np_onehot indices depth = Err ValueError <-> depth < 0.
Proof.
  intros indices depth. unfold np_onehot. destruct (Z.ltb_spec depth 0); split; auto; try lia. intro E. exfalso. revert E.
  generalize (Z.to_nat depth). intros k. induction indices as [|i r IH]; cbn; [discriminate|]. destruct (wrap k i); [|discriminate].
  destruct (hot_rows k r) as [t|e]; cbn; [discriminate|]. intro E. apply IH. congruence.
Qed.
Print Assumptions C58_depth.
Example C58_depth_case : np_onehot [0; 1] (-1) = Err ValueError /\ np_onehot [] (-2) = Err ValueError /\ np_onehot [0] 0 = Err IndexError.
Proof. repeat split; reflexivity. Qed.

Lemma take_short : forall A (l : list A) ks, (exists i, In i ks /\ (List.length l <= i)%nat) -> take l ks = Err IndexError.
Proof.
  intros A l ks [i [I L]]. induction ks as [|k r IH]; [destruct I|]. cbn. destruct (nth_error l k) eqn:N; auto.
  destruct I as [->|I]; [apply nth_error_None in L; congruence|]. rewrite (IH I). reflexivity.
Qed.
(** C56: a node drop that fails does so after it has replaced the edges.  Features too short for a kept node:
    IndexError, and features, targets and masks are as before.  No targets: TypeError, with new features.
    Targets too short: IndexError, with new features.  No training mask: AttributeError, with new features
    and targets.  The number of nodes is never updated. *)
Theorem C56_halfway : forall p perm d n l, (0 <= p)%Q -> (p <= 1)%Q -> Permutation perm (seq 0 n) ->
  num_nodes d = n -> d_ei d = EPairs l -> edges_in n l ->
  (match d_ea d with Some a => List.length a = List.length l | None => True end) ->
  exists ks r d', node_drop p perm d = (r, d') /\ numbers n (fun i => ~ In i (firstn (drops p n) perm)) ks /\ edges_left ks l d d' /\ same_rest d d' /\
    ((exists i, In i ks /\ (List.length (d_x d) <= i)%nat) -> r = Err IndexError /\ d_x d' = d_x d /\ d_y d' = d_y d /\ masks_as_before d d' /\ d_num d' = d_num d) /\
    ((forall i, In i ks -> (i < List.length (d_x d))%nat) -> picked ks (d_x d) (d_x d') /\
      (d_y d = None -> r = Err TypeError /\ d_y d' = None /\ masks_as_before d d' /\ d_num d' = d_num d) /\
      (forall y, d_y d = Some y ->
        ((exists i, In i ks /\ (List.length y <= i)%nat) -> r = Err IndexError /\ d_y d' = d_y d /\ masks_as_before d d' /\ d_num d' = d_num d) /\
        ((forall i, In i ks -> (i < List.length y)%nat) -> opicked ks (d_y d) (d_y d') /\
           (d_train d = None -> r = Err AttributeError /\ masks_as_before d d' /\ d_num d' = d_num d)))).
Proof.
  intros p perm d n l P1 P2 PM N E R EA. destruct (drops_le p n P1 P2) as [D1 D2].
  assert (PN : (0 <= p * inject_Z (Z.of_nat n))%Q) by (apply Qmult_le_0_compat; auto; change 0%Q with (inject_Z 0); rewrite <- Zle_Qle; lia).
  set (drop := firstn (drops p n) perm). set (f := fun i => negb (in_nats drop i)). set (ks := filter f (seq 0 n)).
  assert (FK : forall i, f i = true <-> ~ In i drop). { intros i. unfold f. rewrite negb_true_iff. rewrite <- in_nats_iff. destruct (in_nats drop i); split; try congruence. }
  assert (NK : numbers n (fun i => ~ In i drop) ks) by (apply filter_numbers; intros; apply FK).
  assert (KB : forall i, In i ks -> (i < n)%nat) by (intros i I; apply NK in I; tauto).
  unfold node_drop. rewrite N, E, (trunc_floor _ PN), prefix_nat by auto. fold (drops p n). fold drop. fold f. fold ks. unfold filter_adj. cbn [adj_size bind].
  replace (forallb (fun i => Nat.ltb i n) ks) with true by (symmetry; apply forallb_forall; intros i I; apply Nat.ltb_lt; auto).
  destruct (edge_mask_ok n (in_nats ks) l ks R) as [g [G1 G2]]; [intros; apply in_nats_iff|]. rewrite G1. cbn [bind].
  assert (LM : List.length (map g l) = List.length l) by apply map_length.
  rewrite (msel_ok _ _ l) by auto. cbn [bind].
  match goal with |- context [match match ?q with _ => _ end with Ok _ => _ | Err _ => _ end] => set (fa := q) end.
  assert (FA : exists d1, (match d_ea d with
      | Some a => bind (msel (map g l) a) (fun a' => Ok (where_true (map g l) l, Some a')) | None => Ok (where_true (map g l) l, None) end) =
      Ok (where_true (map g l) l, match d_ea d with Some a => Some (where_true (map g l) a) | None => None end) /\
    d1 = match (match d_ea d with Some a => Some (where_true (map g l) a) | None => None end) with
         | Some a => set_edges d (EPairs (where_true (map g l) l)) (Some a)
         | None => set_edges d (EFlat (map fst (where_true (map g l) l))) (Some (map (fun ab => inject_Z (snd ab)) (where_true (map g l) l))) end /\
    edges_left ks l d d1 /\ same_rest d d1 /\ d_x d1 = d_x d /\ d_y d1 = d_y d /\ masks_as_before d d1 /\ d_num d1 = d_num d).
  { unfold edges_left. destruct (d_ea d) as [a|] eqn:EE.
    - rewrite (msel_ok _ _ a) by lia. cbn [bind]. eexists. split; [reflexivity|]. split; [reflexivity|]. cbn. split; [|repeat split].
      eexists. eexists. split; [reflexivity|]. split; [reflexivity|]. split; [apply where_len; auto|]. rewrite <- where_combine by auto.
      rewrite (map_combine_fst _ _ _ g l a) by auto. apply where_selects. intros [e q] I. cbn. apply G2. apply in_combine_l in I. exact I.
    - eexists. split; [reflexivity|]. split; [reflexivity|]. cbn. split; [|repeat split]. eexists. split; [apply where_selects; intros e I; apply G2; exact I|]. split; reflexivity. }
  destruct FA as [d1 [FA [DE [F1 [F2 [F3 [F4 [F5 F6]]]]]]]]. subst fa. cbv beta in FA. rewrite FA. cbv beta iota zeta. rewrite <- DE. clear DE FA.
  destruct (forallb (fun i => Nat.ltb i (List.length (d_x d))) ks) eqn:BX.
  2:{ assert (X : exists i, In i ks /\ (List.length (d_x d) <= i)%nat).
      { apply Bool.not_true_iff_false in BX. destruct (List.existsb (fun i => Nat.leb (List.length (d_x d)) i) ks) eqn:EX.
        - apply existsb_exists in EX as [i [I L]]. apply Nat.leb_le in L. eauto.
        - exfalso. apply BX. apply forallb_forall. intros i I. apply Nat.ltb_lt. destruct (Nat.ltb_spec i (List.length (d_x d))); auto. exfalso.
          assert (Y : List.existsb (fun i => Nat.leb (List.length (d_x d)) i) ks = true) by (apply existsb_exists; exists i; split; auto; apply Nat.leb_le; lia). congruence. }
      rewrite (take_short _ _ _ X). exists ks. eexists. eexists. split; [reflexivity|]. split; [exact NK|]. split; [exact F1|]. split; [exact F2|]. split; [auto|].
      intros Y. destruct X as [i [I L]]. specialize (Y i I). lia. }
  rewrite forallb_forall in BX. assert (BX' : forall i, In i ks -> (i < List.length (d_x d))%nat) by (intros i I; apply Nat.ltb_lt, BX, I). clear BX.
  destruct (take_ok _ (d_x d) ks BX') as [x [X1 X2]]. rewrite X1.
  assert (NX : ~ exists i, In i ks /\ (List.length (d_x d) <= i)%nat) by (intros [i [I L]]; specialize (BX' i I); lia).
  set (d2 := set_x d1 x).
  assert (A2 : edges_left ks l d d2) by exact F1. assert (B2 : same_rest d d2) by exact F2.
  assert (C2 : d_y d2 = d_y d) by exact F4. assert (D2' : masks_as_before d d2) by exact F5. assert (E2 : d_num d2 = d_num d) by exact F6. assert (G2' : d_x d2 = x) by reflexivity. clearbody d2.
  destruct (d_y d) as [y|] eqn:EY; cbn [take_attr].
  2:{ exists ks. eexists. eexists. split; [reflexivity|]. split; [exact NK|]. split; [exact A2|]. split; [exact B2|]. split; [intro; contradiction|]. intros _. rewrite G2'. split; [exact X2|]. split; [auto|]. discriminate. }
  destruct (List.existsb (fun i => Nat.leb (List.length y) i) ks) eqn:EX.
  { assert (X : exists i, In i ks /\ (List.length y <= i)%nat) by (apply existsb_exists in EX as [i [I L]]; apply Nat.leb_le in L; eauto).
    rewrite (take_short _ _ _ X). cbn [bind]. exists ks. eexists. eexists. split; [reflexivity|]. split; [exact NK|]. split; [exact A2|]. split; [exact B2|]. split; [intro; contradiction|]. intros _. rewrite G2'. split; [exact X2|]. split; [discriminate|].
    intros y0 Y0. injection Y0 as <-. split; [auto|]. intros Y. destruct X as [i [I L]]. specialize (Y i I). lia. }
  assert (BY : forall i, In i ks -> (i < List.length y)%nat).
  { intros i I. destruct (Nat.ltb_spec i (List.length y)); auto. exfalso. assert (Y : List.existsb (fun i => Nat.leb (List.length y) i) ks = true) by (apply existsb_exists; exists i; split; auto; apply Nat.leb_le; lia). congruence. }
  assert (NY : ~ exists i, In i ks /\ (List.length y <= i)%nat) by (intros [i [I L]]; specialize (BY i I); lia).
  destruct (take_ok _ y ks BY) as [y' [Y1 Y2]]. rewrite Y1. cbn [bind]. exists ks.
  assert (G : forall (r : res unit) d', (edges_left ks l d d' /\ same_rest d d' /\ d_x d' = x /\ d_y d' = Some y' /\ (d_train d = None -> r = Err AttributeError /\ masks_as_before d d' /\ d_num d' = d_num d)) ->
    exists r0 d0, (r, d') = (r0, d0) /\ numbers n (fun i => ~ In i drop) ks /\ edges_left ks l d d0 /\ same_rest d d0 /\
    ((exists i, In i ks /\ (List.length (d_x d) <= i)%nat) -> r0 = Err IndexError /\ d_x d0 = d_x d /\ d_y d0 = Some y /\ masks_as_before d d0 /\ d_num d0 = d_num d) /\
    ((forall i, In i ks -> (i < List.length (d_x d))%nat) -> picked ks (d_x d) (d_x d0) /\
      (Some y = None -> r0 = Err TypeError /\ d_y d0 = None /\ masks_as_before d d0 /\ d_num d0 = d_num d) /\
      (forall y1, Some y = Some y1 ->
        ((exists i, In i ks /\ (List.length y1 <= i)%nat) -> r0 = Err IndexError /\ d_y d0 = Some y /\ masks_as_before d d0 /\ d_num d0 = d_num d) /\
        ((forall i, In i ks -> (i < List.length y1)%nat) -> opicked ks (Some y) (d_y d0) /\
           (d_train d = None -> r0 = Err AttributeError /\ masks_as_before d d0 /\ d_num d0 = d_num d))))).
  { intros r d' [H1 [H2 [H3 [H4 H5]]]]. exists r, d'. split; [reflexivity|]. split; [exact NK|]. split; [exact H1|]. split; [exact H2|]. split; [intro; contradiction|]. intros _. rewrite H3. split; [exact X2|]. split; [discriminate|].
    intros y1 Y0. injection Y0 as <-. split; [intro; contradiction|]. intros _. split; [exists y, y'; auto|exact H5]. }
  destruct (d_train d) as [m1|] eqn:T; cbn [take_attr bind].
  2:{ apply G. repeat (split; [assumption || exact A2 || exact B2|]). split; [reflexivity|]. intros _. split; [reflexivity|]. split; [exact D2'|exact E2]. }
  destruct (take m1 ks); cbn [bind]; [|apply G; repeat (split; [assumption || reflexivity|]); discriminate].
  destruct (take_attr (d_val d) ks AttributeError); [|apply G; repeat (split; [assumption || reflexivity|]); discriminate].
  destruct (take_attr (d_test d) ks AttributeError); [|apply G; repeat (split; [assumption || reflexivity|]); discriminate].
  apply G. repeat (split; [assumption || reflexivity|]). discriminate.
Qed.
Print Assumptions C56_halfway.
Example C56_halfway_case : let d := set_y d_ex None in
  num_nodes d = 4%nat /\ fst (node_drop (1 # 4) [1; 3; 0; 2]%nat d) = Err TypeError /\ d_ei (snd (node_drop (1 # 4) [1; 3; 0; 2]%nat d)) = EPairs [(0, 3); (3, 2); (3, 3)] /\
  d_x (snd (node_drop (1 # 4) [1; 3; 0; 2]%nat d)) = [[10]; [12]; [13]]%Q /\
  fst (node_drop (1 # 4) [1; 3; 0; 2]%nat (set_num (set_x d_ex [[10]; [11]]%Q) 4)) = Err IndexError /\
  d_ei (snd (node_drop (1 # 4) [1; 3; 0; 2]%nat (set_num (set_x d_ex [[10]; [11]]%Q) 4))) = EPairs [(0, 3); (3, 2); (3, 3)].
Proof. repeat split; reflexivity. Qed.

Lemma fl_zero_iff : forall x, (fl x == 0)%Q <-> (x == 0)%Q.
Proof.
  intros x. split; intro H; [|rewrite (fl_0 x H); reflexivity]. destruct (Qlt_le_dec 0 x) as [A|A]; [apply fl_gt0 in A; lra|].
  destruct (Qlt_le_dec x 0) as [B|B]; [|lra]. pose proof (fl_opp x) as O. assert (C : (0 < - x)%Q) by lra. apply fl_gt0 in C. lra.
Qed.
Lemma Qceiling_zero : forall p, Qceiling p = 0 <-> (-1 < p)%Q /\ (p <= 0)%Q.
Proof.
  intros p. split.
  - intro E. pose proof (Qle_ceiling p) as A. pose proof (Qceiling_lt p) as B. rewrite E in A, B. change (inject_Z (0 - 1)) with (-1)%Q in B. change (inject_Z 0) with 0%Q in A. auto.
  - intros [A B]. apply Qceiling_resp_le in B. change (Qceiling 0) with 0 in B. assert (C : -1 < Qceiling p); [|lia].
    apply Z.lt_nge. intro D. rewrite Zle_Qle in D. pose proof (Qle_ceiling p). change (inject_Z (-1)) with (-1)%Q in D. lra.
Qed.
(** C213: the only error of quantize_to_nearest_step is a ZeroDivisionError; its assertion never fails.  The
    error is raised exactly if the step size or the tempo is zero, or the number of ticks in a step is zero:
    without beats for a step size of 1, and otherwise if the quotient 480 beats / step size, rounded to a
    double, lies above -1 and not above 0. *)
Theorem C213_step_errors : forall t step tempo beats,
  ((exists q, quantize_to_nearest_step_f t step tempo beats = Ok q) \/ quantize_to_nearest_step_f t step tempo beats = Err ZeroDivisionError) /\
  (quantize_to_nearest_step_f t step tempo beats = Err ZeroDivisionError <->
   (step == 0)%Q \/ (tempo == 0)%Q \/ ((step == 1)%Q /\ beats = 0) \/
   (~ (step == 1)%Q /\ -1 < fl (inject_Z (480 * beats) / step) /\ fl (inject_Z (480 * beats) / step) <= 0)%Q).
Proof.
  intros t step tempo beats. unfold quantize_to_nearest_step_f. change (480 * beats) with (480 * beats)%Z.
  assert (TZ : (fl (fl (inject_Z 480 * tempo) / 60) == 0)%Q <-> (tempo == 0)%Q).
  { rewrite fl_zero_iff. assert (X : (fl (inject_Z 480 * tempo) / 60 == 0)%Q <-> (fl (inject_Z 480 * tempo) == 0)%Q).
    { split; intro H; [|rewrite H; reflexivity]. assert (Y : (fl (inject_Z 480 * tempo) == fl (inject_Z 480 * tempo) / 60 * 60)%Q) by (field). rewrite Y, H. reflexivity. }
    rewrite X, fl_zero_iff. change (inject_Z 480) with 480%Q. split; intro H; [|rewrite H; reflexivity].
    apply Qmult_integral in H as [H|H]; [discriminate|exact H]. }
  assert (BZ : (step == 1)%Q -> (Qfloor (fl (inject_Z (480 * beats) / step)) = 0 <-> beats = 0)).
  { intros S1. assert (E : (inject_Z (480 * beats) / step == inject_Z (480 * beats))%Q) by (rewrite S1; field). rewrite (fl_m _ _ E). split; [|intros ->; reflexivity].
    intros F. destruct (Z_lt_ge_dec 0 beats) as [L|L].
    - exfalso. assert (H : (480 <= fl (inject_Z (480 * beats)))%Q).
      { apply Qle_trans with (fl (inject_Z 480)); [vm_compute; discriminate|]. apply fl_mono0; [discriminate|]. rewrite <- Zle_Qle. lia. }
      apply Qfloor_resp_le in H. change (Qfloor 480) with 480 in H. lia.
    - destruct (Z.eq_dec beats 0); auto. exfalso. pose proof (Qfloor_le (fl (inject_Z (480 * beats)))) as H. rewrite F in H. change (inject_Z 0) with 0%Q in H.
      assert (X : (0 < fl (- inject_Z (480 * beats)))%Q). { apply fl_gt0. rewrite <- inject_Z_opp. change 0%Q with (inject_Z 0). rewrite <- Zlt_Qlt. lia. }
      pose proof (fl_opp (inject_Z (480 * beats))). lra. }
  generalize dependent (fl (fl (inject_Z 480 * tempo) / 60)). intros tps TZ. generalize dependent (fl (inject_Z (480 * beats) / step)). intros p BZ. cbv zeta.
  destruct (Qeq_bool step 0) eqn:S0.
  { apply Qeq_bool_iff in S0. split; [auto|]. split; auto. }
  apply Qeq_bool_neq in S0. assert (NZ : forall n, (n * 480) mod 480 = 0) by (intros; apply Z.mod_mul; lia).
  destruct (Qeq_bool step 1) eqn:S1.
  - apply Qeq_bool_iff in S1. specialize (BZ S1). destruct (Z.eqb_spec (Qfloor p) 0) as [P0|P0]; [apply BZ in P0; split; [auto|split; auto]|].
    destruct (Qeq_bool tps 0) eqn:T0; [apply Qeq_bool_iff, TZ in T0; split; [auto|split; auto]|]. apply Qeq_bool_neq in T0. rewrite NZ. cbn [Z.eqb negb].
    split; [left; eexists; reflexivity|]. split; [discriminate|]. intros [H|[H|[[_ H]|[H _]]]]; exfalso; auto; [apply T0, TZ, H|apply P0, BZ, H].
  - apply Qeq_bool_neq in S1. destruct (Z.eqb_spec (Qceiling p) 0) as [P0|P0]; [apply Qceiling_zero in P0; split; [auto|split; auto]|].
    destruct (Qeq_bool tps 0) eqn:T0; [apply Qeq_bool_iff, TZ in T0; split; [auto|split; auto]|]. apply Qeq_bool_neq in T0.
    split; [left; eexists; reflexivity|]. split; [discriminate|]. intros [H|[H|[[H _]|[_ H]]]]; exfalso; auto; [apply T0, TZ, H|apply P0, Qceiling_zero, H].
Qed.
Print Assumptions C213_step_errors.
Example C213_step_errors_case : quantize_to_nearest_step_f 1 (-1000) 120 2 = Err ZeroDivisionError /\ quantize_to_nearest_step_f 1 (-1000) 120 4 <> Err ZeroDivisionError /\
  quantize_to_nearest_step_f 1 1 120 0 = Err ZeroDivisionError.
Proof. split; [vm_compute; reflexivity|]. split; [vm_compute; discriminate|vm_compute; reflexivity]. Qed.
(** C213: the module's own check of its grid quantiser passes in double precision. *)
Theorem C213_self_check : check_grid_quantization_f = Ok tt.
Proof. exact C213_case_check. Qed.
Print Assumptions C213_self_check.

(** C08: for every interval, null ones and ones whose ends are near each other included: the distance to a
    point near both ends is 0; to any other point it is the time since the end, if the end is not after the
    point, and otherwise the time until the begin (negative behind it).  overlap_size of a point raises an
    AttributeError in the first case and is 0 otherwise. *)
Theorem C08_any_point : forall i p,
  (near (f_begin i) p /\ near p (f_end i) -> f_distance_point i p = 0 /\ f_overlap_size_point i p = Err AttributeError) /\
  (~ (near (f_begin i) p /\ near p (f_end i)) -> f_overlap_size_point i p = Ok 0 /\
     (f_end i <= p -> f_distance_point i p = p - f_end i) /\ (p < f_end i -> f_distance_point i p = f_begin i - p)).
Proof.
  intros i p. pose proof (float_interval_contains_point_exact i p) as C. unfold f_distance_point, f_overlap_size_point, f_overlaps_point.
  destruct (f_contains_point i p).
  - split; [auto|]. intros N. exfalso. apply N, C. reflexivity.
  - split; [intros H; apply C in H; discriminate|]. intros _. split; [reflexivity|]. split; intros H; destruct (Z.leb_spec (f_end i) p); auto; lia.
Qed.
Print Assumptions C08_any_point.
Example C08_any_point_case : f_distance_point (mkF 1000000000000 1000000000001 None) 1000000000000 = 0 /\ f_distance_point (mkF 3 3 None) 3 = 0 /\ f_distance_point (mkF 9 3 None) 5 = 2.
Proof. repeat split; vm_compute; reflexivity. Qed.
