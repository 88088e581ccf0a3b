(** Properties C115-C118: set algebra and range operations of FloatIntervalTree.  [history t] ranges over
    every tree that constructor, method and operator calls can produce, in any number and order; [has t k]
    is [k in t]. *)
From Verif Require Import PyBase M_FloatInterval M_Node M_Tree M_TreeSet S_FloatInterval S_Tree S_TreeSet L_FloatInterval L_TreeSet.
Open Scope Z_scope.

(** C115 *)
Theorem tree_operators : forall t u, history t -> history u ->
  (exists r, t_or t u = Ok r /\ history r /\ forall k, has r k <-> has t k \/ has u k) /\
  (exists r, t_and t u = Ok r /\ history r /\ forall k, has r k <-> has t k /\ has u k) /\
  (exists r, t_sub t u = Ok r /\ history r /\ forall k, has r k <-> has t k /\ ~ has u k) /\
  (exists r, t_xor t u = Ok r /\ history r /\ forall k, has r k <-> (has t k /\ ~ has u k) \/ (has u k /\ ~ has t k)).
Proof. exact operators_ok. Qed.
Print Assumptions tree_operators.

(** C115: the in-place operators. *)
Theorem tree_inplace_operators : forall t u, history t -> history u ->
  (fst (t_ior t u) = Ok tt /\ forall k, has (snd (t_ior t u)) k <-> has t k \/ has u k) /\
  (fst (t_iand t u) = Ok tt /\ forall k, has (snd (t_iand t u)) k <-> has t k /\ has u k) /\
  (fst (t_isub t u) = Ok tt /\ forall k, has (snd (t_isub t u)) k <-> has t k /\ ~ has u k) /\
  (fst (t_ixor t u) = Ok tt /\ forall k, has (snd (t_ixor t u)) k <-> (has t k /\ ~ has u k) \/ (has u k /\ ~ has t k)).
Proof. exact inplace_ok. Qed.
Print Assumptions tree_inplace_operators.

(** C115: trees so produced go on behaving as sets. *)
Theorem tree_after_operators : forall t i, history t -> ordinary i ->
  fst (t_add t i) = Ok tt /\ (forall k, has (snd (t_add t i)) k <-> has t k \/ k = i) /\
  fst (t_discard t i) = Ok tt /\ (forall k, has (snd (t_discard t i)) k <-> has t k /\ k <> i) /\
  t_remove t i = (Err ValueError, t).
Proof. exact history_add. Qed.
Print Assumptions tree_after_operators.

(** C115: len counts the members. *)
Theorem tree_operator_len : forall t l, history t -> lists l (has t) -> t_len t = List.length l.
Proof. exact members_ok. Qed.
Print Assumptions tree_operator_len.

Definition ts_a : list fiv := [mkF 1 4 None; mkF 5 9 (Some 7); mkF 2 3 None].
Definition ts_b : list fiv := [mkF 5 9 (Some 7); mkF 20 30 None].
Definition ts_tree (l : list fiv) : tree := match t_init l with Ok t => t | Err _ => t_empty end.
Lemma ts_ok : forall l, (l = ts_a \/ l = ts_b) -> history (ts_tree l).
Proof.
  intros l D. apply (h_new l).
  - intros i IN. right. assert (F : Forall ordinary l).
    { destruct D as [-> | ->]; repeat first [apply Forall_nil | apply Forall_cons; [apply long_enough_ordinary; split; reflexivity|]]. }
    rewrite Forall_forall in F. auto.
  - destruct D as [-> | ->]; vm_compute; reflexivity.
Qed.
Example tree_operators_case :
  history (ts_tree ts_a) /\ history (ts_tree ts_b) /\
  match t_xor (ts_tree ts_a) (ts_tree ts_b) with Ok r => t_len r = 3%nat /\ t_begin r = 1 /\ t_end r = 30 | Err _ => False end /\
  t_len (snd (t_iand (ts_tree ts_a) (ts_tree ts_b))) = 1%nat.
Proof. split; [apply ts_ok; auto|]. split; [apply ts_ok; auto|]. vm_compute. auto. Qed.

(** C116 *)
Theorem tree_comparisons : forall t u, history t -> history u ->
  (t_le t u = true <-> forall k, has t k -> has u k) /\
  (t_lt t u = true <-> (forall k, has t k -> has u k) /\ exists k, has u k /\ ~ has t k) /\
  (t_ge t u = true <-> forall k, has u k -> has t k) /\
  (t_gt t u = true <-> (forall k, has u k -> has t k) /\ exists k, has t k /\ ~ has u k) /\
  (t_isdisjoint t u = true <-> forall k, ~ (has t k /\ has u k)).
Proof. exact compare_ok. Qed.
Print Assumptions tree_comparisons.

(** C116: pop, whatever the set's iteration order. *)
Theorem tree_pop : forall first t, history t -> (forall l, l <> [] -> In (first l) l) ->
  ((forall k, ~ has t k) -> t_pop first t = (Err KeyError, t)) /\
  ((exists k, has t k) -> exists i, fst (t_pop first t) = Ok i /\ has t i /\ forall k, has (snd (t_pop first t)) k <-> has t k /\ k <> i).
Proof. exact pop_hist. Qed.
Print Assumptions tree_pop.
Example tree_compare_case :
  t_le (ts_tree ts_b) (ts_tree ts_a) = false /\ t_isdisjoint (ts_tree ts_a) (ts_tree ts_b) = false /\
  match t_or (ts_tree ts_a) (ts_tree ts_b) with Ok r => t_lt (ts_tree ts_a) r = true /\ t_gt r (ts_tree ts_b) = true /\ t_lt r r = false | Err _ => False end /\
  fst (t_pop (fun l => hd (mkF 0 0 None) l) (ts_tree ts_b)) = Ok (mkF 5 9 (Some 7)).
Proof. vm_compute. intuition auto. Qed.

(** C117 *)
Theorem tree_intersection_update : forall t u, history t -> history u ->
  ((forall k, has t k -> has u k) -> t_intersection_update t u = (Ok tt, t)) /\
  ((exists k, has t k /\ ~ has u k) -> t_intersection_update t u = (Err ValueError, t)).
Proof. exact intersection_ok. Qed.
Print Assumptions tree_intersection_update.

(** C117 *)
Theorem tree_symmetric_difference_update : forall t u, history t -> history u ->
  ((forall k, ~ (has t k /\ has u k)) -> fst (t_symmetric_difference_update t u) = Ok tt /\
     forall k, has (snd (t_symmetric_difference_update t u)) k <-> has t k \/ has u k) /\
  ((exists k, has t k /\ has u k) -> t_symmetric_difference_update t u = (Err ValueError, t)).
Proof. exact symmetric_ok. Qed.
Print Assumptions tree_symmetric_difference_update.
Example tree_updates_case :
  fst (t_intersection_update (ts_tree ts_a) (ts_tree ts_b)) = Err ValueError /\
  fst (t_symmetric_difference_update (ts_tree ts_a) (ts_tree ts_b)) = Err ValueError /\
  fst (t_intersection_update (ts_tree ts_a) (ts_tree ts_a)) = Ok tt /\
  t_len (snd (t_symmetric_difference_update (ts_tree ts_a) t_empty)) = 3%nat.
Proof. vm_compute. intuition auto. Qed.

(** C118: nothing added since the tree was made or cleared. *)
Theorem tree_ranges_untouched : forall ops, Forall op_ok ops -> touched ops = false -> let t := t_run t_empty ops in
  (forall k, ~ has t k) /\ t_verify t = Ok tt /\
  forall b e, t_at_number t b = Ok [] /\ t_overlap_numbers t b e = Ok [] /\ t_envelop t b e = Ok [] /\
    t_remove_overlap t b None = (Ok tt, t) /\ t_remove_overlap t b (Some e) = (Ok tt, t) /\ t_remove_envelop t b e = (Ok tt, t) /\
    t_chop t b e = (Ok tt, t) /\ t_slice t b = (Ok tt, t).
Proof. exact fresh_ranges. Qed.
Print Assumptions tree_ranges_untouched.

(** C118: some interval has been added, even if it has been discarded since. *)
Theorem tree_ranges_touched : forall ops, Forall op_ok ops -> touched ops = true -> let t := t_run t_empty ops in
  (t_verify t = Err NameError \/ t_verify t = Err AssertionError) /\
  forall b e, t_at_number t b = Err AttributeError /\ t_remove_overlap t b None = (Err AttributeError, t) /\
    t_chop t b e = (Err AttributeError, t) /\ t_slice t b = (Err AttributeError, t) /\
    (b < e -> t_overlap_numbers t b e = Err AttributeError /\ t_envelop t b e = Err AttributeError /\
              t_remove_overlap t b (Some e) = (Err AttributeError, t) /\ t_remove_envelop t b e = (Err AttributeError, t)) /\
    (e <= b -> t_overlap_numbers t b e = Ok [] /\ t_envelop t b e = Ok [] /\
               t_remove_overlap t b (Some e) = (Ok tt, t) /\ t_remove_envelop t b e = (Ok tt, t)).
Proof. exact used_ranges. Qed.
Print Assumptions tree_ranges_touched.

(** C118 *)
Theorem tree_at_interval : forall t p, history t -> t_at_interval t p = [].
Proof. exact at_interval_none. Qed.
Print Assumptions tree_at_interval.

(** C118 *)
Theorem tree_split_overlaps : forall t, history t ->
  ((forall i j, has t i -> has t j -> f_begin i = f_begin j /\ f_end i = f_end j) -> t_split_overlaps t = (Ok tt, t)) /\
  ((exists i j, has t i /\ has t j /\ (f_begin i <> f_begin j \/ f_end i <> f_end j)) -> t_split_overlaps t = (Err AttributeError, t)).
Proof. exact split_ok. Qed.
Print Assumptions tree_split_overlaps.
Example tree_ranges_case :
  let ops := [TAdd (mkF 5 9 None); TDiscard (mkF 5 9 None)] in
  touched ops = true /\ t_len (t_run t_empty ops) = 0%nat /\ t_at_number (t_run t_empty ops) 6 = Err AttributeError /\
  touched (ops ++ [TClear; TAdd (mkF 3 3 None)]) = false /\
  fst (t_split_overlaps (ts_tree ts_a)) = Err AttributeError /\ fst (t_split_overlaps (ts_tree [mkF 5 9 None; mkF 5 9 (Some 7)])) = Ok tt /\
  t_at_interval (ts_tree ts_a) (mkF 5 9 None) = [].
Proof. vm_compute. intuition auto. Qed.
