(** Properties C151 and C152: the score of a tree, and the remaining methods of FloatIntervalTree.
    [history t]: any tree that calls can produce (S_TreeSet). *)
From Coq Require Import QArith Sorted.
From Verif Require Import PyBase M_FloatInterval M_Node M_Tree M_TreeSet M_TreeMore S_FloatInterval S_Tree S_TreeSet S_TreeMore
  L_FloatInterval L_Tree3 L_TreeMore.
Open Scope Z_scope.

(** C151: what score() returns: [n] members, [m] nodes, [o] the levels a balanced tree of [m] nodes has. *)
Theorem C151_score : forall t, history t ->
  let n := Z.of_nat (t_len t) in let m := Z.of_nat (nd_size (top_node t)) in
  (n <= 2 -> t_score t = Ok 0%Q) /\
  (2 < n -> exists o, enough_levels o m) /\
  (2 < n -> forall o, enough_levels o m ->
     (o = n + 1 -> t_score t = Err ZeroDivisionError) /\
     (o <> n + 1 -> exists r, t_score_report t = Ok r /\ t_score t = Ok (sc_cumulative r) /\
        (sc_depth r * inject_Z (1 + n - o) == inject_Z (lateness o (top_node t)))%Q /\
        (sc_center r * inject_Z (n - 1) == inject_Z (n - m))%Q /\
        (sc_cumulative r == sc_depth r \/ sc_cumulative r == sc_center r)%Q /\
        (sc_depth r <= sc_cumulative r)%Q /\ (sc_center r <= sc_cumulative r)%Q)).
Proof. exact score_ok. Qed.
Print Assumptions C151_score.

(** C151: after insertions only, the score is never negative, and 0 exactly when no interval is deeper than needed. *)
Theorem C151_score_insertions : forall ops, Forall insert_only ops -> let t := t_run t_empty ops in
  2 < Z.of_nat (t_len t) -> forall o, enough_levels o (Z.of_nat (t_len t)) ->
  exists q, t_score t = Ok q /\ (0 <= q)%Q /\
    (q * inject_Z (1 + Z.of_nat (t_len t) - o) == inject_Z (lateness o (top_node t)))%Q /\
    ((q == 0)%Q <-> forall d, In d (levels 1 (top_node t)) -> d <= o).
Proof. exact insertions_score. Qed.
Print Assumptions C151_score_insertions.

(** C151: a constructed tree has at most one node per interval and a nonnegative score. *)
Theorem C151_score_constructor : forall ivs t, (forall i, In i ivs -> ordinary i) -> t_init ivs = Ok t ->
  (nd_size (top_node t) <= t_len t)%nat /\ exists q, t_score t = Ok q /\ (0 <= q)%Q.
Proof. exact constructor_score. Qed.
Print Assumptions C151_score_constructor.

(** C151: removals break it: score() of a tree of [m] insertions of which [n] remain divides by zero when
    n = floor(log2 m), and is not positive when fewer remain (documented: a number between 0 and 1). *)
Theorem C151_score_removals_refuted : forall ops del, Forall insert_only ops -> Forall null_or_ordinary del ->
  let m := Z.of_nat (t_len (t_run t_empty ops)) in let t := t_run t_empty (ops ++ [TDiffUpdate del]) in
  let n := Z.of_nat (t_len t) in
  (2 < n -> 2 ^ n <= m < 2 ^ (n + 1) -> t_score t = Err ZeroDivisionError) /\
  (2 < n -> 2 ^ (n + 1) <= m -> exists q, t_score t = Ok q /\ (q <= 0)%Q).
Proof. exact discards_score. Qed.
Print Assumptions C151_score_removals_refuted.

Definition ladder (n : nat) : list fiv := map (fun k => mkF (Z.of_nat k) (Z.of_nat k + 3) None) (seq 1 n).
Example C151_case :
  Forall insert_only (map TAdd (ladder 9)) /\ Forall null_or_ordinary (ladder 5) /\
  t_len (t_run t_empty (map TAdd (ladder 9))) = 9%nat /\ t_score (t_run t_empty (map TAdd (ladder 9))) = Ok (0 # 8)%Q /\
  t_score (t_run t_empty (map TAdd (ladder 10))) = Ok (0 # 9)%Q /\
  t_len (t_run t_empty (map TAdd (ladder 9) ++ [TDiffUpdate (ladder 6)])) = 3%nat /\
  t_score (t_run t_empty (map TAdd (ladder 9) ++ [TDiffUpdate (ladder 6)])) = Err ZeroDivisionError.
Proof.
  split; [|split; [|vm_compute; repeat split; reflexivity]];
    repeat first [apply Forall_nil | apply Forall_cons | right; apply long_enough_ordinary; split; reflexivity].
Qed.
(** Twelve insertions in an order that leaves one interval at level five, where four levels suffice. *)
Example C151_deep_case :
  let ops := map (fun k => TAdd (mkF k (k + 3) None)) [80; 50; 110; 30; 70; 100; 120; 20; 40; 60; 90; 10] in
  Forall insert_only ops /\ lateness 4 (top_node (t_run t_empty ops)) = 1 /\ t_score (t_run t_empty ops) = Ok (1 # 9)%Q.
Proof.
  cbv zeta. split; [|vm_compute; repeat split; reflexivity].
  repeat first [apply Forall_nil | apply Forall_cons | right; apply long_enough_ordinary; split; reflexivity].
Qed.

(** C152: items(), is_empty(), the printed order and tree[b:e] = data. *)
Theorem C152_accessors : forall t, history t ->
  lists (t_items t) (has t) /\ (t_is_empty t = true <-> forall k, ~ has t k) /\
  lists (t_repr t) (has t) /\ StronglySorted before (t_repr t) /\
  (forall b e d, null_or_ordinary (mkF b e d) -> let (r, t') := t_setitem t b e d in
     (b < e -> r = Ok tt /\ forall k, has t' k <-> has t k \/ k = mkF b e d) /\ (e <= b -> r = Err ValueError /\ t' = t)).
Proof. exact accessors_ok. Qed.
Print Assumptions C152_accessors.

(** C152: overlaps() is False whatever it is asked about, even a member. *)
Theorem C152_overlaps_refuted : forall t a, history t -> t_overlaps t a = false.
Proof. exact overlaps_false. Qed.
Print Assumptions C152_overlaps_refuted.

(** C152: the named set methods, shortcuts and == raise NameError and leave the tree alone. *)
Theorem C152_named_methods_refuted : forall t u b e d l,
  t_difference t u = Err NameError /\ t_union t u = Err NameError /\ t_intersection t u = Err NameError /\
  t_symmetric_difference t u = Err NameError /\ t_from_tuples l = Err NameError /\ t_range t = Err NameError /\
  t_containsi t b e d = Err NameError /\ t_removei t b e d = (Err NameError, t) /\ t_discardi t b e d = (Err NameError, t) /\
  t_find_nested t = Err NameError /\ t_eq t u = Err NameError.
Proof. exact named_methods. Qed.
Print Assumptions C152_named_methods_refuted.

Example C152_case : let t := snd (t_setitem (snd (t_setitem t_empty 5 9 None)) 1 4 (Some 3)) in
  history t /\ t_items t = [mkF 5 9 None; mkF 1 4 (Some 3)] /\ t_repr t = [mkF 1 4 (Some 3); mkF 5 9 None] /\ t_is_empty t = false.
Proof.
  cbv zeta. split; [|vm_compute; auto].
  assert (h : forall t b e d, history t -> ordinary (mkF b e d) -> history (snd (t_setitem t b e d))).
  { intros t b e d H O. apply (h_step t (TAdd (mkF b e d)) H). right. exact O. }
  apply h; [apply h|]; try (apply long_enough_ordinary; split; reflexivity).
  apply (h_new []); [intros i []|reflexivity].
Qed.
