(** Properties C44-C51 and C88-C94: building chord graphs from note sequences.
    [build_sequence e b s c g] is MidiGraphBuilder.build_sequence on the sequence [s] with the
    arguments [c] and the graph [g] (None: a fresh one), [b] the builder before; [build] is
    MidiGraphBuilder.build on the tracks [l], [conv] standing for the conversion to PyG;
    [compute_data e s tol filter true 2] is compute_data with tolerance_auto; [e] stands for
    CPython's hash() and set iteration order. *)
From Coq Require Import Sorted Permutation Relations QArith Qabs Qround Lia Lqa.
From Verif Require Import PyBase L_Base M_Note M_Events M_Seq S_Seq M_Chord M_Graph S_Graph L_Chord L_Chord2 L_Chord3 L_Graph L_Graph2 L_Graph3 L_Graph4 L_Graph5 L_Graph6 L_Graph7 L_Graph8 L_Graph9 L_Graph10 L_Graph11.
Open Scope Z_scope.

(** A hash of sets of pitches without collisions, and insertion order for iteration. *)
Definition e_ex : env := mkEnv py_hash (fun l => fold_right (fun p a => 2 ^ p + a) 0 l) (fun l => l).
Example e_ex_ok : env_ok e_ex.
Proof.
  split; [exact py_hash_eq|]. split; [intros; apply Permutation_refl|]. intros a b P. cbn. induction P; cbn; lia.
Qed.
Definition nt (p v : Z) (s : Q) : note := mkN p v 0 0 0 4 4 false s (s + 1) 0 0.
Definition sq (l : list note) : seq := mkQ (mkI 0 "Piano" false) l [] 10 [] [] 220 4.
Definition cf : config := mkC 2 8 TensorAttr false (1 # 2) true.
(** C-E-G (split in two), A, C-E-G again, A again. *)
Definition s_ex : seq := sq [nt 60 100 0; nt 64 90 0; nt 67 80 0; nt 69 70 1; nt 60 100 2; nt 64 90 2; nt 67 80 2; nt 69 60 3].
Definition walk_ex : list Z := [2 ^ 60 + 2 ^ 64; 2 ^ 67; 2 ^ 69; 2 ^ 60 + 2 ^ 64; 2 ^ 67; 2 ^ 69].

(** C44: the groups are the maximal sets of sounding notes whose starts, snapped to the automatic
    tolerance, hash equally, each in the order of the sequence, ordered by hash; the second result
    is the size of the largest group. *)
Theorem C44_groups : forall e s tol f, (forall n, In n (q_notes s) -> sounding n -> (0 <= n_start n)%Q) ->
  exists data lg key, compute_data e s tol f true 2 = Ok (data, lg) /\ time_key e (compute_tolerance s 95) key /\ groups_of key f (q_notes s) (in_key_order data) /\
    (forall k g, selects (fun n => sounding n /\ key n = k) (q_notes s) g -> Z.of_nat (List.length g) <= lg) /\
    (lg = 0 \/ exists k g, selects (fun n => sounding n /\ key n = k) (q_notes s) g /\ Z.of_nat (List.length g) = lg).
Proof. exact compute_total. Qed.
Print Assumptions C44_groups.
(** C44: every sounding note is in exactly one group unless single notes are filtered; silent and
    drum notes are in none. *)
Theorem C44_partition : forall key f notes gs n, groups_of key f notes gs -> In n notes ->
  (sounding n -> f = false -> exists l1 g l2, gs = l1 ++ g :: l2 /\ In n g /\ (forall g', In g' (l1 ++ l2) -> ~ In n g')) /\
  (~ sounding n -> forall g, In g gs -> ~ In n g).
Proof. exact groups_partition. Qed.
Print Assumptions C44_partition.
(** C44: the sequence determines the groups. *)
Theorem C44_unique : forall e tol f notes k1 k2 g1 g2, env_ok e -> time_key e tol k1 -> time_key e tol k2 ->
  groups_of k1 f notes g1 -> groups_of k2 f notes g2 -> g1 = g2.
Proof. intros e tol f notes k1 k2 g1 g2 EO T1 T2. apply groups_unique. exact (key_unique e tol k1 k2 EO T1 T2). Qed.
Print Assumptions C44_unique.
(** C44: notes snapped to the same time start within the tolerance and a hundredth. *)
Theorem C44_close : forall s n1 n2 a1 a2, let tol := compute_tolerance s 95 in
  snapped tol (n_start n1) a1 -> snapped tol (n_start n2) a2 -> (a1 == a2)%Q -> (Qabs (n_start n1 - n_start n2) <= tol + (1 # 100))%Q.
Proof. intros. eapply same_chord_close; eauto. apply tol95. Qed.
Print Assumptions C44_close.
(** C44: a sounding note with a negative start is an assertion error. *)
Theorem C44_negative : forall e s tol f n, In n (q_notes s) -> sounding n -> (n_start n < 0)%Q -> compute_data e s tol f true 2 = Err AssertionError.
Proof. exact compute_negative. Qed.
Print Assumptions C44_negative.
(** C44: the tolerance is 0 for fewer than two gaps between sorted starts, otherwise the value at
    rank p (n - 1) / 100 among the n ascending gaps, interpolated linearly. *)
Theorem C44_tolerance : forall s p, (0 <= p)%Q -> (p <= 100)%Q -> i_drum (q_instr s) = false ->
  exists starts gaps, Permutation starts (map n_start (q_notes s)) /\ StronglySorted Qle starts /\
    Permutation gaps (diffs starts) /\ StronglySorted Qle gaps /\
    (if Nat.ltb (List.length gaps) 2 then compute_tolerance s p = 0%Q else
     let r := (inject_Z (Z.of_nat (List.length gaps - 1)) * p / 100)%Q in
     let i := Z.to_nat (Qfloor r) in
     (i < List.length gaps)%nat /\ let lo := nth i gaps 0%Q in let hi := nth (Nat.min (S i) (List.length gaps - 1)) gaps 0%Q in
     (compute_tolerance s p == lo + (hi - lo) * (r - inject_Z (Z.of_nat i)))%Q /\ (lo <= compute_tolerance s p)%Q /\ (compute_tolerance s p <= hi)%Q).
Proof.
  intros s p P1 P2 D. set (starts := py_sort Qltb (map n_start (q_notes s))). exists starts.
  assert (TD : time_differences s = diffs starts) by (unfold time_differences; rewrite D; reflexivity).
  destruct (diffs starts) as [|g0 gr] eqn:DE.
  - exists []. split; [symmetry; apply py_sort_perm|]. split; [apply Qltb_sorted|]. split; [constructor|]. split; [constructor|]. cbn. unfold compute_tolerance. rewrite TD. reflexivity.
  - destruct (percentile_rank (g0 :: gr) p ltac:(discriminate) P1 P2) as [l [L1 [L2 L3]]]. exists l. split; [symmetry; apply py_sort_perm|]. split; [apply Qltb_sorted|]. split; [exact L1|]. split; [exact L2|].
    unfold compute_tolerance. rewrite TD. cbv zeta in *. rewrite <- (Permutation_length L1). destruct (Nat.ltb (List.length l) 2); [reflexivity|]. exact L3.
Qed.
Print Assumptions C44_tolerance.
Example C44_case : (compute_tolerance s_ex 95 == 1)%Q /\
  match compute_data e_ex s_ex 0 false true 2 with Ok (d, lg) => map (fun kv => map n_pitch (snd kv)) d = [[60; 64; 67]; [69]; [60; 64; 67]; [69]] /\ lg = 3 | Err _ => False end.
Proof. vm_compute. auto. Qed.

(** C45: building into a fresh graph yields the graph of the walk through the chords of the
    sequence. *)
Theorem C45_fresh : forall e b s c g' b', env_ok e -> build_sequence e b s c None = (Ok g', b') ->
  exists ws, chords_of e s c ws /\ graph_of (map (e_shash e) ws) g' /\ graph_ok g'.
Proof. intros e b s c g' b' EO H. destruct (build_fresh e b s c g' b' EO H) as [ws [A [B [C _]]]]. eauto. Qed.
Print Assumptions C45_fresh.
(** C45: building into an existing graph continues from the node added last. *)
Theorem C45_onto : forall e b s c g ns p g' b', env_ok e -> graph_ok g -> nodes_of g = ns ++ [p] -> build_sequence e b s c (Some g) = (Ok g', b') ->
  exists ws, chords_of e s c ws /\ extends g (p :: map (e_shash e) ws) g' /\ graph_ok g'.
Proof. intros e b s c g ns p g' b' EO G N H. destruct (build_onto e b s c g ns p g' b' EO G N H) as [ws [A [B [C _]]]]. eauto. Qed.
Print Assumptions C45_onto.
(** C45: the weights of a graph add up to the number of chords put into it. *)
Theorem C45_total : forall e b s c g g' b', env_ok e -> (match g with Some g => g_nodes g <> [] | None => True end) -> build_sequence e b s c g = (Ok g', b') ->
  exists ws, chords_of e s c ws /\
    fold_right Z.add 0 (map snd (g_edges g')) = (match g with Some g => fold_right Z.add 0 (map snd (g_edges g)) | None => 0 end) + Z.of_nat (List.length ws).
Proof. exact build_total_weight. Qed.
Print Assumptions C45_total.
Example C45_case : match fst (build_sequence e_ex b_new s_ex cf None) with
  | Ok g => nodes_of g = [2 ^ 60 + 2 ^ 64; 2 ^ 67; 2 ^ 69] /\
      g_edges g = [((2 ^ 60 + 2 ^ 64, 2 ^ 60 + 2 ^ 64), 1); ((2 ^ 60 + 2 ^ 64, 2 ^ 67), 2); ((2 ^ 67, 2 ^ 69), 2); ((2 ^ 69, 2 ^ 60 + 2 ^ 64), 1)] /\
      times (2 ^ 67) (2 ^ 69) walk_ex = 2 /\
      match fst (build_sequence e_ex b_new s_ex cf (Some g)) with Ok g' => weight g' (2 ^ 69) (2 ^ 60 + 2 ^ 64) = 3 | Err _ => False end
  | Err _ => False end.
Proof. vm_compute. auto. Qed.

(** C46: with valid arguments and non-negative starts and pitches (below 127 for one-hot features)
    building succeeds. *)
Theorem C46_succeeds : forall e b s c g, env_ok e -> valid_config c -> (forall n, In n (q_notes s) -> sounding n -> (0 <= n_start n)%Q /\ good_pitch c (n_pitch n)) ->
  (match g with Some g => g_nodes g <> [] | None => True end) -> exists g' b', build_sequence e b s c g = (Ok g', b').
Proof. exact build_total. Qed.
Print Assumptions C46_succeeds.
(** C46: every node carries the feature, label and hash of a chord of the sequence, or is a node of
    the graph given, unchanged. *)
Theorem C46_attributes : forall e b s c g g' b', env_ok e -> build_sequence e b s c g = (Ok g', b') ->
  exists key gs, time_key e (compute_tolerance s 95) key /\ groups_of key (c_filter c) (q_notes s) gs /\
    Forall (fun n => node_from e c gs n \/ match g with Some g0 => In n (g_nodes g0) | None => False end) (g_nodes g').
Proof. exact build_attrs. Qed.
Print Assumptions C46_attributes.
(** C46: the graph is connected, and stays so when more is put into it. *)
Theorem C46_connected : forall e b s c g' b', env_ok e -> build_sequence e b s c None = (Ok g', b') ->
  forall x y, In x (nodes_of g') -> In y (nodes_of g') -> connected g' x y.
Proof.
  intros e b s c g' b' EO H. destruct (build_fresh e b s c g' b' EO H) as [ws [_ [B [C _]]]]. apply (graph_connected _ _ C B).
Qed.
Print Assumptions C46_connected.
Theorem C46_stays_connected : forall e b s c g ns p g' b', env_ok e -> graph_ok g -> nodes_of g = ns ++ [p] -> build_sequence e b s c (Some g) = (Ok g', b') ->
  (forall x y, In x (nodes_of g) -> In y (nodes_of g) -> connected g x y) -> forall x y, In x (nodes_of g') -> In y (nodes_of g') -> connected g' x y.
Proof.
  intros e b s c g ns p g' b' EO G N H CN. destruct (build_onto e b s c g ns p g' b' EO G N H) as [ws [A [B [C _]]]].
  assert (W : forall x y, In x (p :: map (e_shash e) ws) -> In y (p :: map (e_shash e) ws) -> connected g' x y) by (apply walk_connected; apply (extends_linked g _ g' G C B)).
  assert (LI : forall x y, linked g x y -> linked g' x y).
  { assert (ED : forall x y, edge g x y -> edge g' x y).
    { intros x y E. destruct (Z.eq_dec x y) as [->|NE]; [|apply (proj1 (proj2 (proj2 B)) x y NE); auto]. destruct B as [_ [_ [_ B4]]]. apply weight_pos_edge. rewrite B4. pose proof (times_nonneg y y (p :: map (e_shash e) ws)).
      destruct E as [w E]. unfold weight. rewrite E. destruct G as [_ [_ [G3 _]]]. apply (dict_get_In edge_eqb edge_eqb_spec) in E. apply G3 in E. lia. }
    intros x y [E|E]; [left|right]; apply ED; exact E. }
  assert (UP : forall x y, connected g x y -> connected g' x y) by (intros x y X; induction X; [apply rt_step; auto|apply rt_refl|eapply rt_trans; eauto]).
  assert (P : In p (nodes_of g)) by (rewrite N; apply in_or_app; right; left; auto).
  assert (TO : forall x, In x (nodes_of g') -> connected g' x p).
  { intros x X. destruct B as [B1 _]. rewrite B1 in X. apply (proj1 (first_seen_In _ _)) in X. apply in_app_or in X as [X|X]; [apply UP; apply CN; auto|apply W; [auto|left; auto]]. }
  intros x y X Y. eapply rt_trans; [apply TO; exact X|]. apply connected_sym. apply TO. exact Y.
Qed.
Print Assumptions C46_stays_connected.
Example C46_case : valid_config cf /\ (forall n, In n (q_notes s_ex) -> sounding n -> (0 <= n_start n)%Q /\ good_pitch cf (n_pitch n)) /\
  match fst (build_sequence e_ex b_new s_ex cf None) with
  | Ok g => map snd (g_nodes g) = [NChord (Mat [[60; 64]; [127; 32]]) (LNames [60; 64; 67]) (2 ^ 60 + 2 ^ 64); NChord (Mat [[67; 0]; [92; 0]]) (LNames [60; 64; 67]) (2 ^ 67); NChord (Mat [[69; 0]; [84; 0]]) (LNames [69]) (2 ^ 69)]
  | Err _ => False end.
Proof.
  split; [repeat split; cbn; try lia; lra|]. split; [|vm_compute; reflexivity].
  intros n I _. cbn in I. repeat (destruct I as [<-|I]; [cbn; split; [lra|lia]|]). destruct I.
Qed.

(** C47: after any history of calls, successful or not, the hashes seen are numbered 1, 2, ... in
    the order first seen, by mutually inverse maps. *)
Theorem C47_numbered : forall e ops, exists hs, numbered (b_run e b_new ops) hs.
Proof. exact run_numbered. Qed.
Print Assumptions C47_numbered.
(** C47: an index never changes. *)
Theorem C47_stable : forall e ops more h i, dict_get Z.eqb h (b_h2i (b_run e b_new ops)) = Some i ->
  dict_get Z.eqb h (b_h2i (b_run e b_new (ops ++ more))) = Some i.
Proof. exact run_stable. Qed.
Print Assumptions C47_stable.
(** C47: after a successful build every node of the graph has an index and the pitches recorded
    for its hash are those of a chord with that hash. *)
Theorem C47_recorded : forall e ops s c g' b', env_ok e -> build_sequence e (b_run e b_new ops) s c None = (Ok g', b') ->
  exists ws, chords_of e s c ws /\ forall ch, In ch ws -> (exists i, dict_get Z.eqb (e_shash e ch) (b_h2i b') = Some i) /\
    (exists ch', In ch' ws /\ e_shash e ch' = e_shash e ch /\ dict_get Z.eqb (e_shash e ch) (b_h2n b') = Some ch').
Proof.
  intros e ops s c g' b' EO H. destruct (build_fresh e _ s c g' b' EO H) as [ws [A [_ [_ ->]]]]. exists ws. split; auto. intros ch I.
  destruct (run_numbered e ops) as [hs N]. destruct (reg_all_In e ws _ hs N) as [hs' [N' [_ IN]]]. split; [apply (numbered_in _ hs'); auto|].
  assert (L : forall l b, In ch l -> exists ch', In ch' l /\ e_shash e ch' = e_shash e ch /\ dict_get Z.eqb (e_shash e ch) (b_h2n (reg_all e b l)) = Some ch').
  { clear. induction l as [|x l IH] using rev_ind; intros b I; [destruct I|]. unfold reg_all. rewrite fold_left_app. cbn [fold_left]. fold (reg_all e b l).
    assert (X : b_h2n (register (reg_all e b l) (e_shash e x) x) = dict_set Z.eqb (e_shash e x) x (b_h2n (reg_all e b l))) by (unfold register; cbv zeta; destruct (dict_get _ _ (b_h2i _)); reflexivity).
    rewrite X, (dict_get_set Z.eqb Z.eqb_spec). destruct (Z.eqb_spec (e_shash e x) (e_shash e ch)) as [E|E].
    - exists x. split; [apply in_or_app; right; left; auto|auto].
    - apply in_app_or in I as [I|[->|[]]]; [|congruence]. destruct (IH b I) as [ch' [C1 C2]]. exists ch'. split; [apply in_or_app; auto|auto]. }
  apply L. exact I.
Qed.
Print Assumptions C47_recorded.
(** C47: after a successful build every chord of the sequence is recorded, as a set, with its hash. *)
Theorem C47_notes_to_hash : forall e b s c g' b', env_ok e -> build_sequence e b s c None = (Ok g', b') ->
  exists ws, chords_of e s c ws /\ forall ch ch', In ch ws -> (forall p, In p ch' <-> In p ch) ->
    dict_get same_set ch' (b_n2h b') = Some (e_shash e ch).
Proof.
  intros e b s c g' b' EO H. destruct (build_fresh e b s c g' b' EO H) as [ws [A [_ [_ ->]]]]. exists ws. split; auto. intros ch ch' I SM.
  destruct EO as [_ [_ P]]. rewrite <- (reg_all_n2h e ws b ch); auto; try (intros; eapply chords_NoDup; eauto).
  generalize (b_n2h (reg_all e b ws)). intros l. induction l as [|[k v] l IH]; cbn [dict_get]; [reflexivity|].
  rewrite (same_set_cut ch' ch k), IH; [reflexivity|]. apply same_set_iff. exact SM.
Qed.
Print Assumptions C47_notes_to_hash.
Example C47_case : let b := b_run e_ex b_new [OSequence (sq [nt 60 100 0; nt 62 100 1]) cf None; OBuild (fun _ => None) [s_ex] cf true; OSequence (sq [nt (-1) 100 0; nt 62 100 5]) cf None] in
  b_h2i b = [(2 ^ 60, 1); (2 ^ 62, 2); (2 ^ 60 + 2 ^ 64, 3); (2 ^ 67, 4); (2 ^ 69, 5); (0, 6)].
Proof. vm_compute. reflexivity. Qed.

(** C48: a chord is split into chunks covering each of its distinct pitches once, all of the
    feature size but the last, which is not empty and not longer. *)
Theorem C48_chunks : forall e size notes, env_ok e -> 0 < size -> notes <> [] -> splits size notes (split_chord e size notes).
Proof. exact split_chord_splits. Qed.
Print Assumptions C48_chunks.
Example C48_case : split_chord e_ex 2 [nt 60 1 0; nt 64 1 0; nt 60 2 0; nt 67 1 0; nt 72 1 0; nt 74 1 0] = [[60; 64]; [67; 72]; [74]].
Proof. reflexivity. Qed.

(** C49: rescaling keeps the number of velocities and their order and yields values in 32..127. *)
Theorem C49_range : forall v, v <> [] -> exists w, rescale v = Ok w /\ List.length w = List.length v /\ Forall (fun y => 32 <= y <= 127) w /\
  (forall i j, (i < List.length v)%nat -> (j < List.length v)%nat -> nth i v 0 <= nth j v 0 -> nth i w 0 <= nth j w 0).
Proof. exact rescale_total. Qed.
Print Assumptions C49_range.
(** C49: values between a least [lo] and a greatest [hi] are spread linearly over 32..127, rounding
    down. *)
Theorem C49_linear : forall v lo hi, In lo v -> In hi v -> (forall x, In x v -> lo <= x <= hi) -> lo < hi ->
  rescale v = Ok (map (fun x => 32 + (x - lo) * 95 / (hi - lo)) v).
Proof. exact rescale_exact. Qed.
Print Assumptions C49_linear.
(** C49: several equal velocities become 32; a single one is mapped from 0..127 to 32..127, rounding
    to the nearest. *)
Theorem C49_equal : forall v x, (2 <= List.length v)%nat -> (forall y, In y v -> y = x) -> rescale v = Ok (map (fun _ => 32) v).
Proof. exact rescale_same. Qed.
Print Assumptions C49_equal.
Theorem C49_single : forall x, 0 <= x <= 127 -> exists m, rescale [x] = Ok [m] /\ nearest_even (32 + inject_Z x * (95 # 127))%Q m.
Proof. exact rescale_single. Qed.
Print Assumptions C49_single.
Example C49_case : rescale [20; 26; 60; 20] = Ok [32; 46; 127; 32] /\ rescale [100; 100] = Ok [32; 32] /\ rescale [100] = Ok [107] /\ rescale [] = Err ValueError.
Proof. repeat split; reflexivity. Qed.

(** C50: pitch features have exactly the feature size entries, the first pitches and then zeros. *)
Theorem C50_pitches : forall pitches size classes, 0 <= size ->
  exists r, create_tensor TensorAttr pitches None size classes = Ok (Vec r) /\ row size (firstn (Z.to_nat size) pitches) r.
Proof.
  intros pitches size classes S. eexists. split; [reflexivity|]. apply padded_is_row; auto. apply firstn_le_length.
Qed.
Print Assumptions C50_pitches.
(** C50: with at most that many non-negative velocities there is a second such row. *)
Theorem C50_velocities : forall pitches v size classes, 0 <= size -> Z.of_nat (List.length v) <= size -> Forall (Z.le 0) pitches -> Forall (Z.le 0) v ->
  exists r1 r2, create_tensor TensorAttr pitches (Some v) size classes = Ok (Mat [r1; r2]) /\ row size (firstn (Z.to_nat size) pitches) r1 /\ row size v r2.
Proof.
  intros pitches v size classes S L P V. unfold create_tensor. destruct (Nat.ltb_spec (Z.to_nat size) (List.length v)); [lia|].
  assert (FP : forallb (Z.leb 0) (firstn (Z.to_nat size) pitches) = true). { apply forallb_forall. intros x I. apply Z.leb_le. rewrite Forall_forall in P. apply P. rewrite <- (firstn_skipn (Z.to_nat size) pitches). apply in_or_app. auto. }
  assert (FV : forallb (Z.leb 0) v = true). { apply forallb_forall. intros x I. apply Z.leb_le. rewrite Forall_forall in V. auto. }
  rewrite FP, FV. do 2 eexists. split; [reflexivity|]. split.
  - apply padded_is_row; [exact S|apply firstn_le_length].
  - apply padded_is_row; [exact S|lia].
Qed.
Print Assumptions C50_velocities.
(** C50: one-hot features have a row per pitch; a pitch that is not one of the classes raises. *)
Theorem C50_one_hot : forall pitches size classes,
  ((forall p, In p pitches -> 0 <= p < classes) -> exists rows, create_tensor OneHotAttr pitches None size classes = Ok (Mat rows) /\ Forall2 (hot classes) pitches rows) /\
  ((exists p, In p pitches /\ ~ 0 <= p < classes) -> forall v, create_tensor OneHotAttr pitches v size classes = Err RuntimeError).
Proof.
  intros pitches size classes. split.
  - intros H. unfold create_tensor. rewrite one_hot_ok by auto. eexists. split; [reflexivity|]. apply rows_hot. exact H.
  - intros [p [I P]] v. unfold create_tensor. rewrite (one_hot_bad _ _ _ I P). reflexivity.
Qed.
Print Assumptions C50_one_hot.
(** C50: more velocities than entries raise RuntimeError, negative entries AssertionError; one-hot features with velocities
    have the velocity as last entry of each row, and need as many velocities as pitches. *)
Theorem C50_errors : forall pitches v size classes, 0 <= size ->
  (size < Z.of_nat (List.length v) -> create_tensor TensorAttr pitches (Some v) size classes = Err RuntimeError) /\
  (Z.of_nat (List.length v) <= size -> (exists x, (In x v \/ In x (firstn (Z.to_nat size) pitches)) /\ x < 0) ->
     create_tensor TensorAttr pitches (Some v) size classes = Err AssertionError) /\
  ((forall p, In p pitches -> 0 <= p < classes) -> List.length v <> List.length pitches -> create_tensor OneHotAttr pitches (Some v) size classes = Err RuntimeError) /\
  ((forall p, In p pitches -> 0 <= p < classes) -> List.length v = List.length pitches -> exists rows,
     create_tensor OneHotAttr pitches (Some v) size classes = Ok (Mat (map (fun rv => fst rv ++ [snd rv]) (combine rows v))) /\ Forall2 (hot classes) pitches rows).
Proof.
  intros pitches v size classes S. split; [|split; [|split]].
  - intros L. unfold create_tensor. destruct (Nat.ltb_spec (Z.to_nat size) (List.length v)); [reflexivity|lia].
  - intros L [x [I X]]. unfold create_tensor. destruct (Nat.ltb_spec (Z.to_nat size) (List.length v)); [lia|].
    destruct (forallb (Z.leb 0) (firstn (Z.to_nat size) pitches) && forallb (Z.leb 0) v) eqn:E; [|reflexivity]. exfalso.
    apply andb_true_iff in E as [E1 E2]. rewrite forallb_forall in E1, E2.
    destruct I as [I|I]; [specialize (E2 x I); apply Z.leb_le in E2; lia|specialize (E1 x I); apply Z.leb_le in E1; lia].
  - intros H L. unfold create_tensor. rewrite one_hot_ok by auto. cbn [bind].
    replace (Nat.eqb (List.length v) (List.length (map (one_hot_row classes) pitches))) with false; [reflexivity|]. symmetry. apply Nat.eqb_neq. rewrite map_length. exact L.
  - intros H L. unfold create_tensor. rewrite one_hot_ok by auto. cbn [bind].
    replace (Nat.eqb (List.length v) (List.length (map (one_hot_row classes) pitches))) with true by (symmetry; apply Nat.eqb_eq; rewrite map_length; exact L).
    eexists. split; [reflexivity|]. apply rows_hot. exact H.
Qed.
Print Assumptions C50_errors.
Example C50_case : create_tensor TensorAttr [64; 60; 62] (Some [1; 2; 3]) 4 127 = Ok (Mat [[64; 60; 62; 0]; [1; 2; 3; 0]]) /\
  create_tensor TensorAttr [64; 60; 62] None 2 127 = Ok (Vec [64; 60]) /\ create_tensor OneHotAttr [2; 0] None 9 3 = Ok (Mat [[0; 0; 1]; [1; 0; 0]]).
Proof. repeat split; reflexivity. Qed.

(** C51: after any history, list(graphs()) is the first stored graph only, with the class indices
    of its nodes as targets and (unless skipped) labels, and the builder then holds no graphs. *)
Theorem C51_first_only : forall e ops (skip : bool) fuel, (2 <= fuel)%nat -> let b := b_run e b_new ops in b_h2n b <> [] ->
  match b_pyg b with
  | [] => graphs_drain fuel b skip false GStart = (Ok [], b)
  | p :: _ => exists is b', Forall2 (fun h i => dict_get Z.eqb h (b_h2i b) = Some i) (nodes_of (p_graph p)) is /\
      graphs_drain fuel b skip false GStart = (Ok [mkP (p_graph p) (Some is) (if skip then None else Some is)], b') /\ b_pyg b' = [] /\ b_sub b' = []
  end.
Proof.
  intros e ops skip fuel F b NE. destruct (b_pyg b) as [|p r] eqn:E; [apply drain_none; auto; lia|].
  destruct (drain_first b skip fuel p r F (run_known e ops b_new new_known) NE E) as [is [I H]]. exists is. eexists. split; [exact I|]. split; [exact H|]. split; reflexivity.
Qed.
Print Assumptions C51_first_only.
(** C51: without any chord seen, graphs() raises. *)
Theorem C51_nothing : forall b skip sanity fuel, (1 <= fuel)%nat -> b_h2n b = [] -> graphs_drain fuel b skip sanity GStart = (Err ValueError, b).
Proof. exact drain_empty. Qed.
Print Assumptions C51_nothing.
(** C51: a consumer that only takes the first graph of each generator gets the same graph again
    after any further builds. *)
Theorem C51_next_only : forall e ops0 skip p1 b1 s1 ops skip', let b := b_run e b_new ops0 in
  graphs_next b skip false GStart = (Ok p1, b1, s1) -> Forall no_resume ops ->
  exists p2 b2 s2, graphs_next (b_run e b1 ops) skip' false GStart = (Ok p2, b2, s2) /\ p_graph p2 = p_graph p1.
Proof. exact next_same. Qed.
Print Assumptions C51_next_only.
(** C51: with the sanity check on, no graph is ever yielded: AttributeError. *)
Theorem C51_sanity : forall e ops skip p r, let b := b_run e b_new ops in b_pyg b = p :: r -> g_nodes (p_graph p) <> [] -> b_h2n b <> [] ->
  fst (fst (graphs_next b skip true GStart)) = Err AttributeError.
Proof.
  intros e ops skip p r b E G NE. apply (sanity_next b skip p r (run_known e ops b_new new_known) E G NE). intros h H.
  destruct (run_numbered e ops) as [hs N]. apply (numbered_in _ hs); auto. destruct N as [_ [<- _]]. exact H.
Qed.
Print Assumptions C51_sanity.
Definition s_two : seq := sq [nt 50 100 0; nt 52 100 1; nt 54 100 2].
Definition b_two : builder := b_run e_ex b_new [OBuild (fun _ => None) [s_two; s_ex] cf true].
Example C51_case : List.length (b_pyg b_two) = 2%nat /\ b_h2n b_two <> [] /\
  (match graphs_drain 5 b_two false false GStart with (Ok [p], b) => p_y p = Some [1; 2; 3] /\ p_label p = Some [1; 2; 3] /\ b_pyg b = [] | _ => False end) /\
  (match graphs_next b_two true false GStart with (Ok p, _, _) => p_label p = None /\ nodes_of (p_graph p) = [2 ^ 50; 2 ^ 52; 2 ^ 54] | _ => False end).
Proof. vm_compute. repeat split; discriminate. Qed.

(** C88: with CPython's hash, times that are multiples of 2^-j are ordered by their fractional part
    first and only then by their integer part. *)
Theorem C88_hash_order : forall j q1 q2, 0 <= j <= 60 -> dyadic j q1 -> dyadic j q2 ->
  (py_hash q1 < py_hash q2 <-> (frac q1 < frac q2)%Q \/ ((frac q1 == frac q2)%Q /\ Qfloor q1 < Qfloor q2)).
Proof. exact hash_order. Qed.
Print Assumptions C88_hash_order.
(** C88: hence the chords of a sequence are not visited in the order of time: those at times with
    a smaller fractional part come first. *)
Theorem C88_visits : forall e b s c g' b', env_ok e -> e_thash e = py_hash -> c_filter c = false -> build_sequence e b s c None = (Ok g', b') ->
  exists key gs css, time_key e (compute_tolerance s 95) key /\ groups_of key false (q_notes s) gs /\ Forall2 (splits (c_size c)) gs css /\
    graph_of (map (e_shash e) (List.concat css)) g' /\
    forall j n1 n2 a1 a2, 0 <= j <= 60 -> In n1 (q_notes s) -> In n2 (q_notes s) -> sounding n1 -> sounding n2 ->
      snapped (compute_tolerance s 95) (n_start n1) a1 -> snapped (compute_tolerance s 95) (n_start n2) a2 -> dyadic j a1 -> dyadic j a2 -> (frac a1 < frac a2)%Q ->
      exists l1 g1 l2 g2 l3, gs = l1 ++ g1 :: l2 ++ g2 :: l3 /\ In n1 g1 /\ In n2 g2.
Proof.
  intros e b s c g' b' EO TH FI H. destruct (build_fresh e b s c g' b' EO H) as [ws [[key [gs [css [T [G [F ->]]]]]] [W _]]]. rewrite FI in G.
  exists key, gs, css. split; [exact T|]. split; [exact G|]. split; [exact F|]. split; [exact W|].
  intros j n1 n2 a1 a2 J I1 I2 S1 S2 A1 A2 D1 D2 L. apply (groups_order key (q_notes s)); auto.
  destruct (T n1) as [x1 [X1 ->]]. destruct (T n2) as [x2 [X2 ->]]. rewrite TH. rewrite (py_hash_eq x1 a1 (snapped_unique _ _ _ _ X1 A1)), (py_hash_eq x2 a2 (snapped_unique _ _ _ _ X2 A2)).
  apply (hash_order j); auto.
Qed.
Print Assumptions C88_visits.
(** Four notes at 0, 1/2, 1, 3/2: the walk is 60, 64, 62, 65, not 60, 62, 64, 65. *)
Example C88_case : py_hash 1 = 1 /\ py_hash (1 # 2) = 2 ^ 60 /\ py_hash (3 # 2) = 2 ^ 60 + 1 /\ py_hash (1 # 4) = 2 ^ 59 /\
  match fst (build_sequence e_ex b_new (sq [nt 60 100 0; nt 62 100 (1 # 2); nt 64 100 1; nt 65 100 (3 # 2)]) cf None) with
  | Ok g => nodes_of g = [2 ^ 60; 2 ^ 64; 2 ^ 62; 2 ^ 65] /\ edge_weight g (2 ^ 64) (2 ^ 62) = Some 1 | Err _ => False end.
Proof. vm_compute. repeat split. Qed.

(** C89: the tolerance and the number of velocity buckets, when accepted, do not influence the
    result. *)
Theorem C89_irrelevant : forall e b s c g t k, valid_config c -> (0 <= t)%Q -> (t <= 1)%Q -> 1 <= k ->
  build_sequence e b s (mkC (c_size c) k (c_type c) (c_filter c) t (c_velocity c)) g = build_sequence e b s c g.
Proof. exact build_tolerance_irrelevant. Qed.
Print Assumptions C89_irrelevant.
(** C89: values outside the accepted ranges raise ValueError and change nothing. *)
Theorem C89_invalid : forall e b s c g, ~ valid_config c -> build_sequence e b s c g = (Err ValueError, b).
Proof. exact build_invalid. Qed.
Print Assumptions C89_invalid.
Example C89_case : build_sequence e_ex b_new s_ex (mkC 2 3 TensorAttr false (1 # 50) true) None = build_sequence e_ex b_new s_ex cf None /\ ~ valid_config (mkC 0 8 TensorAttr false 0 true).
Proof. split; [vm_compute; reflexivity|]. intros [H _]. cbn in H. lia. Qed.

(** C90: building per instrument stores one graph per non-drum track with other than one note and
    at least one chord, in order, each the graph of that track alone. *)
Theorem C90_per_instrument : forall e conv b l c b', env_ok e -> build e conv b l c true = (Ok tt, b') ->
  exists ts gs, selects (track_ok e c) l ts /\ Forall2 (graph_of_track e c) ts gs /\ Forall graph_ok gs /\
    b_pyg b' = b_pyg b ++ map (fun g => mkP g None None) gs /\ b_sub b' = b_sub b ++ gs.
Proof. exact build_per_instrument. Qed.
Print Assumptions C90_per_instrument.
(** C90: otherwise one graph holds all of them, each track's walk continuing from the node added
    last; no graph is stored if no track qualifies. *)
Theorem C90_whole : forall e conv b l c b', env_ok e -> build e conv b l c false = (Ok tt, b') ->
  exists ts, selects (track_ok e c) l ts /\
    ((ts = [] /\ b_pyg b' = b_pyg b /\ b_sub b' = b_sub b) \/
     (exists g, graph_of_tracks e c ts g /\ graph_ok g /\ b_pyg b' = b_pyg b ++ [mkP g None None] /\ b_sub b' = b_sub b ++ [g])).
Proof. exact build_whole. Qed.
Print Assumptions C90_whole.
(** C90: building succeeds if the conversion does and the tracks are acceptable. *)
Theorem C90_succeeds : forall e conv b l c per, env_ok e -> valid_config c -> (forall g, conv g = None) ->
  Forall (fun s => forall n, In n (q_notes s) -> sounding n -> (0 <= n_start n)%Q /\ good_pitch c (n_pitch n)) l ->
  exists b', build e conv b l c per = (Ok tt, b').
Proof. exact build_all_total. Qed.
Print Assumptions C90_succeeds.
Example C90_case : map (fun g => nodes_of g) (b_sub (snd (build e_ex (fun _ => None) b_new [s_two; sq [nt 1 1 0]; s_ex; sq [nt 1 0 0; nt 2 0 0]] cf true))) = [[2 ^ 50; 2 ^ 52; 2 ^ 54]; [2 ^ 60 + 2 ^ 64; 2 ^ 67; 2 ^ 69]] /\
  map (fun g => (nodes_of g, weight g (2 ^ 54) (2 ^ 60 + 2 ^ 64))) (b_sub (snd (build e_ex (fun _ => None) b_new [s_two; sq [nt 1 1 0]; s_ex; sq [nt 1 0 0; nt 2 0 0]] cf false))) = [([2 ^ 50; 2 ^ 52; 2 ^ 54; 2 ^ 60 + 2 ^ 64; 2 ^ 67; 2 ^ 69], 1)].
Proof. vm_compute. auto. Qed.

(** C91: the edge index lists every edge once, by the positions of its ends among the nodes, with
    its weight at the same place of the weight list. *)
Theorem C91_edge_index : forall g, graph_ok g -> List.length (edge_index g) = List.length (g_edges g) /\ List.length (edge_weights g) = List.length (g_edges g) /\
  (forall k i j w, nth_error (edge_index g) k = Some (i, j) -> nth_error (edge_weights g) k = Some w ->
     exists a b, nth_error (nodes_of g) i = Some a /\ nth_error (nodes_of g) j = Some b /\ edge_weight g a b = Some w) /\
  (forall a b w, edge_weight g a b = Some w -> exists k i j, nth_error (edge_index g) k = Some (i, j) /\ nth_error (edge_weights g) k = Some w /\
     nth_error (nodes_of g) i = Some a /\ nth_error (nodes_of g) j = Some b) /\
  NoDup (edge_index g).
Proof. exact edge_index_spec. Qed.
Print Assumptions C91_edge_index.
Example C91_case : match fst (build_sequence e_ex b_new s_ex cf None) with
  | Ok g => edge_index g = [(0, 0); (0, 1); (1, 2); (2, 0)]%nat /\ edge_weights g = [1; 2; 2; 1] | Err _ => False end.
Proof. vm_compute. auto. Qed.

(** C92: is_connected(g, u, v) asks for an edge from v to u; for a chord v that is no node it raises. *)
Theorem C92_is_connected : forall e g u v, NoDup (map fst (g_edges g)) ->
  let hu := e_shash e (frozenset e u) in let hv := e_shash e (frozenset e v) in
  (In hv (nodes_of g) -> exists r, is_connected e g u v = Ok r /\ (r = true <-> edge g hv hu)) /\ (~ In hv (nodes_of g) -> is_connected e g u v = Err KeyError).
Proof. exact connected_spec. Qed.
Print Assumptions C92_is_connected.
(** C92: get_edge_connected(g, u, v) asks for an edge from u to v. *)
Theorem C92_get_edge : forall e g u v, graph_ok g -> let hu := e_shash e (frozenset e u) in let hv := e_shash e (frozenset e v) in
  (edge g hu hv -> get_edge_connected e g u v = Some (hu, hv)) /\ (~ edge g hu hv -> get_edge_connected e g u v = None).
Proof.
  intros e g u v G hu hv. split; [apply (get_edge_spec e g u v G)|]. intros N. unfold get_edge_connected. cbv zeta. destruct (_ && _) eqn:E; [|reflexivity]. exfalso. apply N. apply andb_true_iff in E as [_ E]. apply has_edge_iff. exact E.
Qed.
Print Assumptions C92_get_edge.
(** C92: the order and repetitions of the pitches given do not matter. *)
Theorem C92_sets : forall e a b, env_ok e -> (forall p, In p a <-> In p b) -> e_shash e (frozenset e a) = e_shash e (frozenset e b).
Proof. exact hash_set. Qed.
Print Assumptions C92_sets.
Example C92_case : match fst (build_sequence e_ex b_new s_ex cf None) with
  | Ok g => is_connected e_ex g [69] [67; 67] = Ok true /\ is_connected e_ex g [67] [69] = Ok false /\ get_edge_connected e_ex g [67] [69] = Some (2 ^ 67, 2 ^ 69) /\ is_connected e_ex g [67] [1] = Err KeyError | Err _ => False end.
Proof. vm_compute. auto. Qed.

(** C93: merging nodes replaces them by a new node, greater than all others, with the edges that
    left them, and drops the edges that led to them. *)
Theorem C93_merge : forall g nodes, graph_ok g -> nodes_of g <> [] -> NoDup nodes -> (forall n, In n nodes -> In n (nodes_of g)) ->
  exists new g', merge_nodes g nodes = Ok (new, g') /\ ~ In new (nodes_of g) /\ (forall h, In h (nodes_of g) -> h < new) /\ merged g nodes new g'.
Proof. exact merge_spec. Qed.
Print Assumptions C93_merge.
Theorem C93_missing : forall g nodes n, graph_ok g -> nodes_of g <> [] -> In n nodes -> ~ In n (nodes_of g) -> n <> lmax (nodes_of g) + 1 -> merge_nodes g nodes = Err KeyError.
Proof. exact merge_missing. Qed.
Print Assumptions C93_missing.
Example C93_case : match fst (build_sequence e_ex b_new s_ex cf None) with
  | Ok g => match merge_nodes g [2 ^ 67; 2 ^ 69] with Ok (n, g') => n = 2 ^ 69 + 1 /\ nodes_of g' = [2 ^ 60 + 2 ^ 64; n] /\ g_edges g' = [((2 ^ 60 + 2 ^ 64, 2 ^ 60 + 2 ^ 64), 1); ((n, 2 ^ 60 + 2 ^ 64), 1)] | Err _ => False end
  | Err _ => False end.
Proof. vm_compute. auto. Qed.

(** C94: with one-hot features a sounding note of pitch 127 (or outside 0..126) cannot be encoded. *)
Theorem C94_pitch_127 : forall e b s c g n, env_ok e -> valid_config c -> c_type c = OneHotAttr -> c_filter c = false ->
  (forall m, In m (q_notes s) -> sounding m -> (0 <= n_start m)%Q) -> (match g with Some g => g_nodes g <> [] | None => True end) ->
  In n (q_notes s) -> sounding n -> ~ 0 <= n_pitch n < 127 -> fst (build_sequence e b s c g) = Err RuntimeError.
Proof. exact build_onehot_fails. Qed.
Print Assumptions C94_pitch_127.
(** C94: a sounding note with negative start raises and leaves the builder as it was. *)
Theorem C94_negative_start : forall e b s c g n, valid_config c -> In n (q_notes s) -> sounding n -> (n_start n < 0)%Q -> build_sequence e b s c g = (Err AssertionError, b).
Proof. exact build_negative. Qed.
Print Assumptions C94_negative_start.
Example C94_case : fst (build_sequence e_ex b_new (sq [nt 60 100 0; nt 127 100 1]) (mkC 2 8 OneHotAttr false 0 false) None) = Err RuntimeError /\
  (exists g, fst (build_sequence e_ex b_new (sq [nt 60 100 0; nt 126 100 1]) (mkC 2 8 OneHotAttr false 0 false) None) = Ok g).
Proof. split; [vm_compute; reflexivity|]. eexists. vm_compute. reflexivity. Qed.
