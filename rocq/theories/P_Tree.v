(** Properties C10-C13, C66-C68: FloatIntervalTree.  [t_run t_empty ops] is the tree after
    the calls [ops] on a new tree; exceptions are included (a raising call is a step). *)
From Coq Require Import Sorted Permutation.
From Verif Require Import PyBase M_FloatInterval M_Node M_Tree S_FloatInterval S_Tree L_FloatInterval L_Tree3.
Open Scope Z_scope.

(** C10 *)
Theorem tree_set_semantics : forall ops, Forall op_ok ops ->
  let t := t_run t_empty ops in
  (forall k, t_contains t k = true <-> set_after_all ops k) /\
  (forall l, lists l (set_after_all ops) -> t_len t = List.length l) /\
  (exists l, lists l (set_after_all ops)) /\
  (forall k, set_after_all ops k -> ordinary k).
Proof. exact tree_set_lemma. Qed.
Print Assumptions tree_set_semantics.

(** C10: which calls raise, and that redundant or rejected calls change nothing. *)
Theorem tree_call_outcomes : forall ops o, Forall op_ok ops -> op_ok o ->
  let t := t_run t_empty ops in
  (forall r, expected_outcome o = Some r -> fst (t_step t o) = r) /\
  (forall i, t_contains t i = true -> t_add t i = (Ok tt, t)) /\
  (forall i, f_end i <= f_begin i -> t_add t i = (Err ValueError, t)) /\
  (forall i, null_or_ordinary i -> t_contains t i = false -> t_discard t i = (Ok tt, t)).
Proof. exact tree_outcomes_lemma. Qed.
Print Assumptions tree_call_outcomes.

Definition sample_ops : list t_op :=
  [TAdd (mkF 5 9 None); TUpdate [mkF 1 4 (Some 7); mkF 8 8 None; mkF 2 3 None];
   TAdd (mkF 6 7 None); TDiscard (mkF 6 7 None); TAdd (mkF 5 9 None); TRemove (mkF 5 9 None);
   TAdd (mkF 20 30 None)].
Example tree_ops_case :
  Forall op_ok sample_ops /\ t_len (t_run t_empty sample_ops) = 3%nat /\
  t_begin (t_run t_empty sample_ops) = 1 /\ t_end (t_run t_empty sample_ops) = 30.
Proof.
  split; [|vm_compute; auto].
  repeat first [apply Forall_nil | apply Forall_cons
    | right; apply long_enough_ordinary; split; reflexivity | left; apply Z.leb_le; reflexivity].
Qed.

(** C11 *)
Theorem tree_boundaries : forall ops l, Forall op_ok ops -> lists l (set_after_all ops) ->
  let t := t_run t_empty ops in
  StronglySorted Z.lt (map fst (bounds t)) /\
  (forall k n, In (k, n) (bounds t) <-> n = endpoint_count l k /\ 0 < n) /\
  (l = [] -> t_begin t = 0 /\ t_end t = 0 /\ t_span t = 0) /\
  (l <> [] ->
     (exists i, In i l /\ f_begin i = t_begin t) /\ (forall i, In i l -> t_begin t <= f_begin i) /\
     (exists i, In i l /\ f_end i = t_end t) /\ (forall i, In i l -> f_end i <= t_end t) /\
     t_span t = t_end t - t_begin t).
Proof. exact tree_bounds_lemma. Qed.
Print Assumptions tree_boundaries.

(** C12 *)
Theorem tree_insertions_balanced : forall ops, Forall insert_only ops ->
  let t := t_run t_empty ops in
  Permutation (nd_elems (top_node t)) (all_intervals t) /\
  NoDup (nd_elems (top_node t)) /\
  one_per_node (top_node t) /\
  search_tree (top_node t) /\ records_right (top_node t) /\ balanced (top_node t) /\
  2 ^ height (top_node t) <= (Z.of_nat (t_len t) + 1) ^ 2.
Proof. exact tree_avl_lemma. Qed.
Print Assumptions tree_insertions_balanced.

Definition ascending (n : nat) : list t_op :=
  map (fun k => TAdd (mkF (Z.of_nat k) (Z.of_nat k + 3) None)) (seq 1 n).
Example tree_insertions_case :
  Forall insert_only (ascending 15) /\ height (top_node (t_run t_empty (ascending 15))) = 4.
Proof.
  split; [|reflexivity].
  repeat first [apply Forall_nil | apply Forall_cons
    | right; apply long_enough_ordinary; split; reflexivity].
Qed.

(** C13 *)
Theorem tree_remove_always_raises : forall ops i, Forall op_ok ops -> null_or_ordinary i ->
  let t := t_run t_empty ops in
  t_remove t i = (Err ValueError, t) /\
  (t_contains t i = true ->
     let t' := snd (t_discard t i) in
     t_contains t' i = false /\ In i (nd_elems (top_node t')) /\ top_node t' = top_node t).
Proof. exact tree_remove_lemma. Qed.
Print Assumptions tree_remove_always_raises.

Example tree_remove_case : t_contains (t_run t_empty sample_ops) (mkF 5 9 None) = true.
Proof. reflexivity. Qed.

(** C66 *)
Theorem tree_point_queries_refuted : forall ops, Forall op_ok ops ->
  let t := t_run t_empty ops in
  (forall p, t_overlaps_point t p = false) /\ (forall b e, t_overlaps_range t b e = false) /\
  (forall i p, t_contains t i = true -> t_at_number t p = Err AttributeError /\
     t_getitem_number t p = Err AttributeError /\
     (forall e, p < e -> t_overlap_numbers t p e = Err AttributeError)) /\
  (forall i b e, t_contains t i = true -> b < e -> t_getitem_slice t (Some b) (Some e) = Err AttributeError).
Proof. exact tree_queries_lemma. Qed.
Print Assumptions tree_point_queries_refuted.

(** C66: slices of the tree. *)
Theorem tree_slices : forall ops, Forall op_ok ops -> let t := t_run t_empty ops in
  (exists l, t_getitem_slice t None None = Ok l /\ lists l (set_after_all ops)) /\
  (forall i b, t_contains t i = true -> b < f_end i -> t_getitem_slice t (Some b) None = Err AttributeError) /\
  (forall i e, t_contains t i = true -> f_begin i < e -> t_getitem_slice t None (Some e) = Err AttributeError) /\
  (forall b e, e <= b -> t_getitem_slice t (Some b) (Some e) = Ok []).
Proof. exact slice_lemma. Qed.
Print Assumptions tree_slices.

Example tree_point_case : members_at (t_run t_empty sample_ops) 6 (mkF 5 9 None).
Proof. split; [reflexivity|]. split; [apply Z.leb_le|apply Z.ltb_lt]; reflexivity. Qed.

(** C67 *)
Theorem tree_merge_overlaps_never_merges : forall ops strict, Forall op_ok ops ->
  let t := t_run t_empty ops in
  let clash := exists a b, t_contains t a = true /\ t_contains t b = true /\ a <> b /\
       f_begin a <= f_begin b /\ (f_begin b < f_end a \/ (strict = false /\ f_begin b = f_end a)) in
  (clash -> t_merge_overlaps strict t = (Err NameError, t)) /\
  (~ clash -> fst (t_merge_overlaps strict t) = Ok tt /\
     forall k, t_contains (snd (t_merge_overlaps strict t)) k = t_contains t k).
Proof. exact merge_overlaps_lemma. Qed.
Print Assumptions tree_merge_overlaps_never_merges.

(** C67 *)
Theorem tree_merge_others_never_merge : forall ops, Forall op_ok ops ->
  let t := t_run t_empty ops in
  forall o, (o = TMergeEquals \/ exists d s, o = TMergeNeighbors d s) ->
  (t_step t o = (Err NameError, t) \/
   (fst (t_step t o) = Ok tt /\ forall k, t_contains (snd (t_step t o)) k = t_contains t k)).
Proof. exact merge_others_lemma. Qed.
Print Assumptions tree_merge_others_never_merge.

(** C67: merge_equals and merge_neighbors raise exactly when two members would be merged. *)
Theorem tree_merge_conditions : forall ops, Forall op_ok ops ->
  let t := t_run t_empty ops in
  ((exists a b, t_contains t a = true /\ t_contains t b = true /\ a <> b /\ f_begin a = f_begin b /\ f_end a = f_end b) ->
     t_merge_equals t = (Err NameError, t)) /\
  ((forall a b, t_contains t a = true -> t_contains t b = true -> f_begin a = f_begin b -> f_end a = f_end b -> a = b) ->
     fst (t_merge_equals t) = Ok tt) /\
  (forall d strict, (exists a b, next_member t a b /\ neighbours d strict a b) -> t_merge_neighbors d strict t = (Err NameError, t)) /\
  (forall d strict, (forall a b, next_member t a b -> ~ neighbours d strict a b) -> fst (t_merge_neighbors d strict t) = Ok tt).
Proof. exact merge_conditions_lemma. Qed.
Print Assumptions tree_merge_conditions.
Example tree_merge_conditions_case :
  let t := t_run t_empty [TAdd (mkF 1 4 None); TAdd (mkF 6 9 None); TAdd (mkF 6 9 (Some 2))] in
  fst (t_merge_equals t) = Err NameError /\ fst (t_merge_neighbors 1 true t) = Ok tt /\ fst (t_merge_neighbors 2 true t) = Err NameError /\ fst (t_merge_neighbors 1 false t) = Err NameError.
Proof. vm_compute. auto. Qed.

Example tree_merge_case :
  fst (t_merge_overlaps true (t_run t_empty (ascending 5))) = Err NameError /\
  fst (t_merge_overlaps true (t_run t_empty [TAdd (mkF 1 4 None); TAdd (mkF 4 6 None)])) = Ok tt.
Proof. split; reflexivity. Qed.

(** C68 *)
Theorem tree_constructor : forall ivs, (forall i, In i ivs -> ordinary i) ->
  exists t, t_init ivs = Ok t /\ (forall k, t_contains t k = true <-> In k ivs) /\
    (NoDup ivs -> t_len t = List.length ivs) /\
    Permutation (nd_elems (top_node t)) (all_intervals t) /\
    search_tree (top_node t) /\ records_right (top_node t).
Proof. exact tree_init_lemma. Qed.
Print Assumptions tree_constructor.

(** C68 *)
Theorem tree_constructor_rejects_null : forall ivs,
  (exists i, In i ivs /\ f_end i <= f_begin i) -> t_init ivs = Err ValueError.
Proof. exact tree_init_null. Qed.
Print Assumptions tree_constructor_rejects_null.

(** C68: with an interval whose endpoints are near, no recursion depth is enough. *)
Theorem tree_constructor_near_interval_never_returns : forall fuel i,
  near (f_begin i) (f_end i) -> from_sorted fuel [i] = Err RecursionError.
Proof. exact from_sorted_loops. Qed.
Print Assumptions tree_constructor_near_interval_never_returns.

Example tree_constructor_case :
  ordinary (mkF 1 3 None) /\ near 10000000000 10000000001 /\
  t_init [mkF 10000000000 10000000001 None] = Err RecursionError.
Proof.
  split; [apply long_enough_ordinary; split; reflexivity|]. split; [|reflexivity].
  apply zclose_near. reflexivity.
Qed.
