(** Properties C06-C09: FloatInterval. *)
From Verif Require Import PyBase M_FloatInterval S_Interval S_FloatInterval L_FloatInterval.
Open Scope Z_scope.

(** C06 *)
Theorem float_interval_order_strict_total : strict_total_order f_ltb f_eqb.
Proof. exact f_order_lemma. Qed.
Print Assumptions float_interval_order_strict_total.

(** C06 *)
Theorem float_interval_order_lexicographic : forall (h : Z * Z -> Z) i o,
  (f_ltb i o = true <->
     f_begin i < f_begin o \/ (f_begin i = f_begin o /\ f_end i < f_end o)
     \/ (f_begin i = f_begin o /\ f_end i = f_end o /\
         match f_data i, f_data o with
         | Some x, Some y => x < y | None, Some _ => True | _, None => False end)) /\
  f_gtb i o = f_ltb o i /\
  (f_eqb i o = true -> f_hash h i = f_hash h o).
Proof. exact f_order_more. Qed.
Print Assumptions float_interval_order_lexicographic.

Example float_order_case : f_ltb (mkF 1 5 None) (mkF 1 5 (Some 0)) = true /\ f_ltb (mkF 0 9 (Some 4)) (mkF 1 5 None) = true.
Proof. split; reflexivity. Qed.

(** C07 *)
Theorem float_interval_contains_point_exact : forall i p,
  f_contains_point i p = true <-> near (f_begin i) p /\ near p (f_end i).
Proof. exact f_contains_point_iff. Qed.
Print Assumptions float_interval_contains_point_exact.

(** C07 *)
Theorem float_interval_overlaps_exact : forall i b e,
  f_overlaps_range i b e = true <-> near b (f_end i) /\ f_begin i < e.
Proof. exact f_overlaps_iff. Qed.
Print Assumptions float_interval_overlaps_exact.

(** C07: every ordinary interval refutes the documented half-open contract. *)
Theorem float_interval_queries_refuted : forall i, ordinary i ->
  in_half_open i (f_begin i) /\
  (forall p, f_contains_point i p = false) /\
  f_overlaps_iv i i = false.
Proof. exact f_queries_fail_lemma. Qed.
Print Assumptions float_interval_queries_refuted.

(** C07: intervals longer than 3e-9 of their endpoints are ordinary. *)
Theorem float_interval_long_is_ordinary : forall i, long_enough i -> ordinary i.
Proof. exact long_enough_ordinary. Qed.
Print Assumptions float_interval_long_is_ordinary.

(** C07: overlap_size: the exact value, 0 of an interval with itself, AttributeError for a
    contained point. *)
Theorem float_interval_overlap_size : forall i b e,
  f_overlap_size_range i b e =
    (if f_overlaps_range i b e then Z.min (f_end i) e - Z.max (f_begin i) b else 0) /\
  (ordinary i -> f_overlap_size_iv i i = 0) /\
  (forall p, (near (f_begin i) p /\ near p (f_end i) -> f_overlap_size_point i p = Err AttributeError) /\
             (~ (near (f_begin i) p /\ near p (f_end i)) -> f_overlap_size_point i p = Ok 0)).
Proof. exact f_overlap_size_lemma. Qed.
Print Assumptions float_interval_overlap_size.

Example ordinary_case : ordinary (mkF 3 7 (Some 1)) /\ ordinary (mkF 0 1 None) /\
  f_contains_point (mkF 1000000000000 1000000000001 None) 1000000000000 = true.
Proof. split; [|split]; [apply long_enough_ordinary; split; reflexivity.. | reflexivity]. Qed.

(** C08: containment is inclusion of point sets. *)
Theorem float_interval_containment_is_inclusion : forall i o,
  f_begin i < f_end i -> f_begin o < f_end o ->
  (f_contains_interval i o = true <-> forall p, in_half_open o p -> in_half_open i p).
Proof. exact f_contains_interval_lemma. Qed.
Print Assumptions float_interval_containment_is_inclusion.

(** C08 *)
Theorem float_interval_containment_order : forall i o k,
  f_contains_interval i i = true /\
  (f_contains_interval i o = true -> f_contains_interval o k = true -> f_contains_interval i k = true) /\
  (f_contains_interval i o = true /\ f_contains_interval o i = true <-> f_range_matches i o = true).
Proof. exact f_contains_order. Qed.
Print Assumptions float_interval_containment_order.

(** C08 *)
Theorem float_interval_length_nonneg : forall i, f_length i = Z.max 0 (f_end i - f_begin i).
Proof. exact f_length_lemma. Qed.
Print Assumptions float_interval_length_nonneg.

(** C08: distance of disjoint intervals is the gap (or 0 if the other starts within 1e-9 of
    this end); of intersecting ones it is negative. *)
Theorem float_interval_distance : forall i o, f_begin i < f_end i -> f_begin o < f_end o ->
  (f_end o <= f_begin i -> f_distance_iv i o = f_begin i - f_end o) /\
  (f_end i <= f_begin o -> ~ near (f_begin o) (f_end i) -> f_distance_iv i o = f_begin o - f_end i) /\
  (f_end i <= f_begin o -> near (f_begin o) (f_end i) -> f_distance_iv i o = 0) /\
  ((exists p, in_half_open i p /\ in_half_open o p) -> ~ near (f_begin o) (f_end i) ->
     f_distance_iv i o < 0).
Proof. exact f_distance_lemma. Qed.
Print Assumptions float_interval_distance.

(** C08: distance of a point: the gap outside; inside, minus the time since the begin (not 0). *)
Theorem float_interval_distance_to_point : forall i p, ordinary i ->
  (f_end i <= p -> f_distance_point i p = p - f_end i) /\
  (p < f_begin i -> f_distance_point i p = f_begin i - p) /\
  (in_half_open i p -> f_distance_point i p = - (p - f_begin i)).
Proof. exact f_distance_point_lemma. Qed.
Print Assumptions float_interval_distance_to_point.

(** C08: lt / gt compare all points, le / ge only one endpoint; null intervals raise. *)
Theorem float_interval_comparisons : forall i o,
  (f_begin i < f_end i -> f_begin o < f_end o ->
     (f_lt i o = Ok true <-> forall p q, in_half_open i p -> in_half_open o q -> p < q) /\
     (f_gt i o = Ok true <-> forall p q, in_half_open i p -> in_half_open o q -> q < p) /\
     f_lt i o = f_gt o i /\
     (f_le i o = Ok true <-> near (f_end i) (f_end o)) /\
     (f_ge i o = Ok true <-> f_begin o <= f_begin i)) /\
  (f_end i <= f_begin i \/ f_end o <= f_begin o ->
     f_lt i o = Err ValueError /\ f_le i o = Err ValueError /\
     f_gt i o = Err ValueError /\ f_ge i o = Err ValueError).
Proof. exact f_compare_lemma. Qed.
Print Assumptions float_interval_comparisons.

Example float_distance_case :
  f_distance_iv (mkF 0 10 None) (mkF 4 6 None) = -6 /\ f_distance_iv (mkF 4 6 None) (mkF 0 10 None) = -6 /\
  f_distance_iv (mkF 0 10 None) (mkF 14 16 None) = 4 /\ f_distance_point (mkF 3 10 None) 7 = -4.
Proof. repeat split; reflexivity. Qed.

(** C09 *)
Theorem float_interval_copy_roundtrip : forall i, f_unpickle_pickle i = i /\ f_copy i = i.
Proof. exact f_copy_lemma. Qed.
Print Assumptions float_interval_copy_roundtrip.
