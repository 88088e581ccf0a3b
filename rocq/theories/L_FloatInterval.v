From Coq Require Import Lia.
From Verif Require Import PyBase M_FloatInterval S_Interval S_FloatInterval.
Open Scope Z_scope.

Lemma zclose_near : forall a b, zclose a b = true <-> near a b.
Proof. intros; unfold zclose, near; rewrite Z.leb_le; reflexivity. Qed.
Lemma zclose_near_false : forall a b, zclose a b = false <-> ~ near a b.
Proof. intros; rewrite <- zclose_near; destruct (zclose a b); split; congruence. Qed.
Lemma near_sym : forall a b, near a b <-> near b a.
Proof. intros; unfold near. replace (Z.abs (b - a)) with (Z.abs (a - b)) by lia. rewrite Z.max_comm; reflexivity. Qed.
Lemma near_refl : forall a, near a a.
Proof. intros; unfold near; lia. Qed.

Lemma d_eqb_eq : forall a b, d_eqb a b = true <-> a = b.
Proof.
  intros [x|] [y|]; simpl; try rewrite Z.eqb_eq; split; intro H; try discriminate; try congruence; auto.
  all: inversion H; auto.
Qed.
Lemma f_eqb_eq : forall i o, f_eqb i o = true <-> i = o.
Proof.
  intros [b e d] [b' e' d']; unfold f_eqb; simpl.
  rewrite !andb_true_iff, !Z.eqb_eq, d_eqb_eq.
  split; [intros [[-> ->] ->]; auto | intro H; inversion H; auto].
Qed.

Lemma f_cmp_spec : forall i o,
  (f_cmp i o = -1 <-> f_begin i < f_begin o \/ (f_begin i = f_begin o /\ f_end i < f_end o)
     \/ (f_begin i = f_begin o /\ f_end i = f_end o /\ d_ltb (f_data i) (f_data o) = true)) /\
  (f_cmp i o = 0 <-> i = o) /\
  (f_cmp i o = -1 \/ f_cmp i o = 0 \/ f_cmp i o = 1).
Proof.
  intros [b e d] [b' e' d']; unfold f_cmp, pair_ltb; simpl.
  destruct (Z.eqb_spec b b'); destruct (Z.eqb_spec e e'); simpl;
    repeat match goal with |- context [?a <? ?b] => destruct (Z.ltb_spec a b) end; simpl;
    try (repeat split; intros; try lia;
         try (match goal with H : mkF _ _ _ = mkF _ _ _ |- _ => inversion H; lia end);
         try (left; lia); try (right; left; lia); try (right; right; lia); fail).
  all: subst; destruct d as [x|], d' as [y|]; simpl;
    repeat match goal with |- context [?a <? ?b] => destruct (Z.ltb_spec a b)
                         | |- context [?a =? ?b] => destruct (Z.eqb_spec a b) end; subst;
    repeat split; intros; try lia; try congruence; auto;
    try (match goal with H : mkF _ _ _ = mkF _ _ _ |- _ => inversion H; try lia; try congruence end);
    try (right; right; repeat split; auto; lia);
    try (destruct H as [?|[[? ?]|[? [? ?]]]]; try lia; try congruence);
    try (destruct H0 as [?|[[? ?]|[? [? ?]]]]; try lia; try congruence);
    try (destruct H1 as [?|[[? ?]|[? [? ?]]]]; try lia; try congruence).
Qed.

Lemma d_ltb_irr : forall a, d_ltb a a = false.
Proof. intros [x|]; simpl; auto; apply Z.ltb_irrefl. Qed.
Lemma d_ltb_trans : forall a b c, d_ltb a b = true -> d_ltb b c = true -> d_ltb a c = true.
Proof. intros [x|] [y|] [z|]; simpl; auto; try discriminate; rewrite !Z.ltb_lt; lia. Qed.
Lemma d_ltb_total : forall a b, a <> b -> d_ltb a b = true \/ d_ltb b a = true.
Proof.
  intros [x|] [y|] H; simpl; auto; try congruence; rewrite !Z.ltb_lt.
  assert (x <> y) by congruence; lia.
Qed.

Lemma f_ltb_spec : forall i o, f_ltb i o = true <->
  f_begin i < f_begin o \/ (f_begin i = f_begin o /\ f_end i < f_end o)
     \/ (f_begin i = f_begin o /\ f_end i = f_end o /\ d_ltb (f_data i) (f_data o) = true).
Proof.
  intros. destruct (f_cmp_spec i o) as [H1 [H2 H3]]. rewrite <- H1.
  unfold f_ltb; rewrite Z.ltb_lt. split; lia.
Qed.

Lemma f_order_lemma : strict_total_order f_ltb f_eqb.
Proof.
  split.
  - exact f_eqb_eq.
  - intros a. destruct (f_ltb a a) eqn:E; auto. apply f_ltb_spec in E.
    rewrite d_ltb_irr in E. intuition (try lia; congruence).
  - intros a b c H1 H2. apply f_ltb_spec in H1; apply f_ltb_spec in H2; apply f_ltb_spec.
    destruct H1 as [H1|[[H1 H1']|[H1 [H1' H1'']]]], H2 as [H2|[[H2 H2']|[H2 [H2' H2'']]]];
      try (left; lia); try (right; left; split; lia).
    right; right; repeat split; try lia. eapply d_ltb_trans; eauto.
  - intros a b.
    destruct (Z.lt_trichotomy (f_begin a) (f_begin b)) as [H|[H|H]].
    { left; apply f_ltb_spec; auto. }
    2:{ right; right; apply f_ltb_spec; auto. }
    destruct (Z.lt_trichotomy (f_end a) (f_end b)) as [H'|[H'|H']].
    { left; apply f_ltb_spec; auto. }
    2:{ right; right; apply f_ltb_spec; auto. }
    destruct (d_eqb (f_data a) (f_data b)) eqn:E.
    { right; left; apply d_eqb_eq in E; destruct a, b; simpl in *; subst; auto. }
    destruct (d_ltb_total (f_data a) (f_data b)) as [H''|H''].
    { intro Hd; apply d_eqb_eq in Hd; congruence. }
    + left; apply f_ltb_spec; auto.
    + right; right; apply f_ltb_spec; right; right; repeat split; auto.
Qed.

Lemma f_order_more : forall h i o,
  (f_ltb i o = true <->
     f_begin i < f_begin o \/ (f_begin i = f_begin o /\ f_end i < f_end o)
     \/ (f_begin i = f_begin o /\ f_end i = f_end o /\
         match f_data i, f_data o with Some x, Some y => x < y | None, Some _ => True | _, None => False end)) /\
  f_gtb i o = f_ltb o i /\
  (f_eqb i o = true -> f_hash h i = f_hash h o).
Proof.
  intros h i o. split; [|split].
  - rewrite f_ltb_spec. replace (d_ltb (f_data i) (f_data o) = true) with
      (d_ltb (f_data i) (f_data o) = true) by auto.
    destruct (f_data i), (f_data o); simpl; try rewrite Z.ltb_lt; intuition congruence.
  - destruct (f_ltb o i) eqn:E.
    + apply f_ltb_spec in E. unfold f_gtb. apply Z.ltb_lt.
      destruct (f_cmp_spec i o) as [H1 [H2 [H3|[H3|H3]]]]; try lia.
      * apply H1 in H3. destruct E as [E|[[E E']|[E [E' E'']]]], H3 as [H3|[[H3 H3']|[H3 [H3' H3'']]]]; try lia.
        pose proof (d_ltb_trans _ _ _ E'' H3'') as T; rewrite d_ltb_irr in T; discriminate.
      * apply H2 in H3; subst. rewrite d_ltb_irr in E. intuition (try lia; congruence).
    + unfold f_gtb. apply Z.ltb_ge. destruct (f_cmp_spec i o) as [H1 [H2 [H3|[H3|H3]]]]; try lia.
      exfalso. destruct f_order_lemma as [_ _ _ T]. destruct (T i o) as [H|[H|H]].
      * apply f_ltb_spec in H; apply H1 in H; lia.
      * apply H2 in H; lia.
      * congruence.
  - intro H; apply f_eqb_eq in H; subst; auto.
Qed.

Lemma f_contains_point_iff : forall i p,
  f_contains_point i p = true <-> near (f_begin i) p /\ near p (f_end i).
Proof. intros; unfold f_contains_point; rewrite andb_true_iff, !zclose_near; reflexivity. Qed.

Lemma f_overlaps_iff : forall i b e,
  f_overlaps_range i b e = true <-> near b (f_end i) /\ f_begin i < e.
Proof. intros; unfold f_overlaps_range; rewrite andb_true_iff, zclose_near, Z.ltb_lt; reflexivity. Qed.

Lemma long_enough_ordinary : forall i, long_enough i -> ordinary i.
Proof.
  intros [b e d]; unfold long_enough, ordinary, near; cbn [f_begin f_end]; intros [H1 H2]; split; auto.
  intros p [H3 H4].
  set (M := Z.max (Z.abs b) (Z.abs e)) in *.
  assert (Z.abs b <= M /\ Z.abs e <= M) as [Hb He] by (unfold M; lia). clearbody M.
  assert (Hp : 2 * Z.abs p <= 3 * M) by lia.
  assert (H5 : 2000000000 * Z.abs (b - p) <= 3 * M) by lia.
  assert (H6 : 2000000000 * Z.abs (p - e) <= 3 * M) by lia.
  clear H3 H4. lia.
Qed.

Lemma ordinary_no_hit : forall i p, ordinary i -> f_contains_point i p = false.
Proof.
  intros i p [_ H]. destruct (f_contains_point i p) eqn:E; auto.
  apply f_contains_point_iff in E. destruct (H _ E).
Qed.
Lemma ordinary_not_near : forall i, ordinary i -> ~ near (f_begin i) (f_end i).
Proof. intros i [_ H] N. apply (H (f_begin i)); split; auto. apply near_refl. Qed.
Lemma ordinary_not_null : forall i, ordinary i -> f_is_null i = false.
Proof. intros i [H _]. unfold f_is_null; apply Z.leb_gt; auto. Qed.

Lemma f_queries_fail_lemma : forall i, ordinary i ->
  in_half_open i (f_begin i) /\
  (forall p, f_contains_point i p = false) /\
  f_overlaps_iv i i = false.
Proof.
  intros i H. split; [|split].
  - destruct H as [H _]; unfold in_half_open; lia.
  - intros; apply ordinary_no_hit; auto.
  - unfold f_overlaps_iv. destruct (f_overlaps_range i (f_begin i) (f_end i)) eqn:E; auto.
    apply f_overlaps_iff in E. destruct E as [E _]. destruct (ordinary_not_near _ H E).
Qed.

Lemma f_contains_interval_lemma : forall i o, f_begin i < f_end i -> f_begin o < f_end o ->
  (f_contains_interval i o = true <-> forall p, in_half_open o p -> in_half_open i p).
Proof.
  intros i o Hi Ho; unfold f_contains_interval, in_half_open.
  rewrite andb_true_iff, !Z.leb_le. split.
  - intros; lia.
  - intros H. pose proof (H (f_begin o)). pose proof (H (f_end o - 1)). lia.
Qed.

Lemma f_length_lemma : forall i, f_length i = Z.max 0 (f_end i - f_begin i).
Proof. intros; unfold f_length, f_is_null. destruct (Z.leb_spec (f_end i) (f_begin i)); lia. Qed.

Lemma f_contains_order : forall i o k,
  f_contains_interval i i = true /\
  (f_contains_interval i o = true -> f_contains_interval o k = true -> f_contains_interval i k = true) /\
  (f_contains_interval i o = true /\ f_contains_interval o i = true <-> f_range_matches i o = true).
Proof.
  intros; unfold f_contains_interval, f_range_matches.
  rewrite !andb_true_iff, !Z.leb_le, !Z.eqb_eq. lia.
Qed.

Lemma f_distance_lemma : forall i o, f_begin i < f_end i -> f_begin o < f_end o ->
  (f_end o <= f_begin i -> f_distance_iv i o = f_begin i - f_end o) /\
  (f_end i <= f_begin o -> ~ near (f_begin o) (f_end i) -> f_distance_iv i o = f_begin o - f_end i) /\
  (f_end i <= f_begin o -> near (f_begin o) (f_end i) -> f_distance_iv i o = 0) /\
  ((exists p, in_half_open i p /\ in_half_open o p) -> ~ near (f_begin o) (f_end i) ->
     f_distance_iv i o < 0).
Proof.
  intros i o Hi Ho. unfold f_distance_iv, f_overlaps_iv.
  assert (E := f_overlaps_iff i (f_begin o) (f_end o)).
  destruct (f_overlaps_range i (f_begin o) (f_end o)).
  - destruct E as [E _]; specialize (E eq_refl). destruct E as [E1 E2].
    split; [|split; [|split]]; intros; try lia; tauto.
  - assert (N : ~ (near (f_begin o) (f_end i) /\ f_begin i < f_end o)) by (rewrite <- E; congruence).
    unfold in_half_open.
    destruct (Z.ltb_spec (f_begin i) (f_begin o)); (split; [|split; [|split]]); intros; try lia.
    all: try (exfalso; apply N; split; auto; lia).
    all: try (destruct H0 as [p ?]; lia).
Qed.

Lemma f_copy_lemma : forall i, f_unpickle_pickle i = i /\ f_copy i = i.
Proof. intros [b e [d|]]; split; reflexivity. Qed.

Lemma f_compare_lemma : forall i o,
  (f_begin i < f_end i -> f_begin o < f_end o ->
     (f_lt i o = Ok true <-> forall p q, in_half_open i p -> in_half_open o q -> p < q) /\
     (f_gt i o = Ok true <-> forall p q, in_half_open i p -> in_half_open o q -> q < p) /\
     f_lt i o = f_gt o i /\
     (f_le i o = Ok true <-> near (f_end i) (f_end o)) /\
     (f_ge i o = Ok true <-> f_begin o <= f_begin i)) /\
  (f_end i <= f_begin i \/ f_end o <= f_begin o ->
     f_lt i o = Err ValueError /\ f_le i o = Err ValueError /\
     f_gt i o = Err ValueError /\ f_ge i o = Err ValueError).
Proof.
  intros i o; unfold f_lt, f_gt, f_le, f_ge, f_guard, f_is_null, in_half_open.
  destruct (Z.leb_spec (f_end i) (f_begin i)); destruct (Z.leb_spec (f_end o) (f_begin o));
    (split; [intros; try lia | intros; try lia; auto]).
  repeat split; intros;
    repeat match goal with
    | H : Ok (?a <=? ?b) = Ok true |- _ => injection H as H; apply Z.leb_le in H
    | H : Ok (zclose ?a ?b) = Ok true |- _ => injection H as H; apply zclose_near in H
    | |- Ok (?a <=? ?b) = Ok true => f_equal; apply Z.leb_le
    | |- Ok (zclose _ _) = Ok true => f_equal; apply zclose_near
    end; auto; try lia.
  - pose proof (H3 (f_end i - 1) (f_begin o)). lia.
  - pose proof (H3 (f_begin i) (f_end o - 1)). lia.
Qed.

Lemma f_overlap_size_lemma : forall i b e,
  f_overlap_size_range i b e =
    (if f_overlaps_range i b e then Z.min (f_end i) e - Z.max (f_begin i) b else 0) /\
  (ordinary i -> f_overlap_size_iv i i = 0) /\
  (forall p, (near (f_begin i) p /\ near p (f_end i) -> f_overlap_size_point i p = Err AttributeError) /\
             (~ (near (f_begin i) p /\ near p (f_end i)) -> f_overlap_size_point i p = Ok 0)).
Proof.
  intros; split; [reflexivity|split].
  - intro H. unfold f_overlap_size_iv, f_overlap_size_range.
    destruct (f_queries_fail_lemma _ H) as [_ [_ E]]. unfold f_overlaps_iv in E. rewrite E; auto.
  - intro p. rewrite <- f_contains_point_iff. unfold f_overlap_size_point, f_overlaps_point.
    destruct (f_contains_point i p); split; intros; auto; congruence.
Qed.

Lemma f_distance_point_lemma : forall i p, ordinary i ->
  (f_end i <= p -> f_distance_point i p = p - f_end i) /\
  (p < f_begin i -> f_distance_point i p = f_begin i - p) /\
  (in_half_open i p -> f_distance_point i p = - (p - f_begin i)).
Proof.
  intros i p H. unfold f_distance_point, f_overlaps_point. rewrite (ordinary_no_hit i p H).
  destruct H as [H _]. unfold in_half_open. destruct (Z.leb_spec (f_end i) p); lia.
Qed.
