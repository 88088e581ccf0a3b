(** Properties C01-C03: closed intervals. *)
From Coq Require Import Lia.
From Verif Require Import PyBase M_Interval S_Interval L_Interval.
Open Scope Z_scope.

(** C01 *)
Theorem interval_overlap_iff_common_point : forall a b,
  (i_overlaps a b = true <-> exists x, in_closed a x /\ in_closed b x) /\
  (forall x, i_contains a x = true <-> in_closed a x).
Proof. exact (fun a b => conj (i_overlaps_iff a b) (i_contains_iff a)). Qed.
Print Assumptions interval_overlap_iff_common_point.

Theorem interval_overlap_symmetric : forall a b, i_overlaps a b = i_overlaps b a.
Proof. exact (fun a b => f_equal2 Z.leb (Z.max_comm _ _) (Z.min_comm _ _)). Qed.
Print Assumptions interval_overlap_symmetric.

Theorem interval_intersection_exact : forall a b,
  match i_intersection a b with
  | None => forall x, ~ (in_closed a x /\ in_closed b x)
  | Some c => (exists x, in_closed c x) /\
              forall x, in_closed c x <-> in_closed a x /\ in_closed b x
  end.
Proof. exact i_inter_ok. Qed.
Print Assumptions interval_intersection_exact.
Example intersection_case : i_intersection (mkI 1 5) (mkI 4 9) = Some (mkI 4 5)
  /\ i_intersection (mkI 1 3) (mkI 4 9) = None.
Proof. split; reflexivity. Qed.

(** C02 *)
Theorem interval_union_is_hull : forall a b,
  (forall x, in_closed a x \/ in_closed b x -> in_closed (i_union a b) x) /\
  (forall c, (forall x, in_closed a x -> in_closed c x) ->
             (forall x, in_closed b x -> in_closed c x) ->
     i_start a <= i_end a -> i_start b <= i_end b ->
     forall x, in_closed (i_union a b) x -> in_closed c x).
Proof. exact i_union_hull. Qed.
Print Assumptions interval_union_is_hull.

Theorem interval_union_exact_when_overlapping : forall a b,
  i_start a <= i_end a -> i_start b <= i_end b -> i_overlaps a b = true ->
  forall x, in_closed (i_union a b) x <-> in_closed a x \/ in_closed b x.
Proof. exact i_union_exact. Qed.
Print Assumptions interval_union_exact_when_overlapping.
Example union_case : i_overlaps (mkI 1 5) (mkI 4 9) = true /\ i_union (mkI 1 5) (mkI 4 9) = mkI 1 9.
Proof. split; reflexivity. Qed.

(** Without overlap the union also contains the gap. *)
Theorem interval_union_point_set_refuted : exists a b x,
  i_start a <= i_end a /\ i_start b <= i_end b /\
  in_closed (i_union a b) x /\ ~ in_closed a x /\ ~ in_closed b x.
Proof. exact i_union_gap. Qed.
Print Assumptions interval_union_point_set_refuted.

(** C03 *)
Theorem interval_order_strict_total : strict_total_order i_ltb i_eqb.
Proof. exact i_sto. Qed.
Print Assumptions interval_order_strict_total.

Theorem interval_le_and_hash : forall h a b,
  (i_leb a b = true <-> i_ltb a b = true \/ a = b) /\
  (i_eqb a b = true -> i_hash h a = i_hash h b).
Proof. exact i_le_hash. Qed.
Print Assumptions interval_le_and_hash.
(** The order is lexicographic: by start, then by end. *)
Theorem interval_order_lexicographic : forall a b,
  (i_ltb a b = true <-> i_start a < i_start b \/ (i_start a = i_start b /\ i_end a < i_end b)).
Proof. exact i_ltb_lex. Qed.
Print Assumptions interval_order_lexicographic.
Example order_case : i_ltb (mkI 1 5) (mkI 1 6) = true /\ i_ltb (mkI 1 9) (mkI 2 3) = true.
Proof. split; reflexivity. Qed.
