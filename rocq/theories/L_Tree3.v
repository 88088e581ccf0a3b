From Coq Require Import Lia Permutation Sorted.
From Verif Require Import PyBase L_Base M_FloatInterval M_Node M_Tree S_Interval S_FloatInterval S_Tree L_FloatInterval L_Tree L_Tree2.
Open Scope Z_scope.
#[local] Arguments Z.add : simpl never.
#[local] Arguments Z.sub : simpl never.
#[local] Arguments Z.max : simpl never.

Lemma tree_set_lemma : forall ops, Forall op_ok ops ->
  let t := t_run t_empty ops in
  (forall k, t_contains t k = true <-> set_after_all ops k) /\
  (forall l, lists l (set_after_all ops) -> t_len t = List.length l) /\
  (exists l, lists l (set_after_all ops)) /\
  (forall k, set_after_all ops k -> ordinary k).
Proof.
  intros ops H t. destruct (run_empty ops H) as [I [L1 L2]]. fold t in I, L1, L2.
  split; [|split; [|split]].
  - intro k. rewrite contains_In. apply L2.
  - intros l [M1 M2]. unfold t_len. apply Permutation_length. apply NoDup_Permutation; auto.
    intro k; rewrite L2, M2; tauto.
  - exists (all_intervals t). split; auto.
  - intros k Hk. apply L2 in Hk. apply I; auto.
Qed.

Lemma tree_outcomes_lemma : forall ops o, Forall op_ok ops -> op_ok o ->
  let t := t_run t_empty ops in
  (forall r, expected_outcome o = Some r -> fst (t_step t o) = r) /\
  (forall i, t_contains t i = true -> t_add t i = (Ok tt, t)) /\
  (forall i, f_end i <= f_begin i -> t_add t i = (Err ValueError, t)) /\
  (forall i, null_or_ordinary i -> t_contains t i = false -> t_discard t i = (Ok tt, t)).
Proof.
  intros ops o H Ho t. destruct (run_empty ops H) as [I [L1 L2]]. fold t in I, L1, L2.
  split; [|split; [|split]].
  - intros r Hr. destruct o as [i|l|i|l|i| | s| |d s]; cbn [t_step op_ok expected_outcome] in *;
      try discriminate; injection Hr as <-.
    + apply t_add_spec; auto.
    + apply t_update_spec; auto.
    + apply t_discard_spec; auto.
    + apply t_difference_spec; auto.
    + rewrite t_remove_spec; auto.
    + reflexivity.
  - intros i Hi. apply contains_In in Hi. apply t_add_spec; auto. right; apply I; auto.
  - intros i Hi. destruct (t_add_spec t i I (or_introl Hi)) as [_ [E1 [E2 _]]].
    rewrite (surjective_pairing (t_add t i)). rewrite E1, E2 by auto.
    destruct (Z.leb_spec (f_end i) (f_begin i)); auto; lia.
  - intros i Hi Hc. apply contains_false in Hc. destruct (t_discard_spec t i I Hi) as [_ [E1 [_ [_ E2]]]].
    rewrite (surjective_pairing (t_discard t i)). rewrite E1, E2 by auto. auto.
Qed.

Lemma last_rev : forall {A} (l : list A) x, In x l -> exists y r, rev l = y :: r.
Proof. intros A l x H. destruct (rev l) eqn:E; eauto. apply in_rev in H. rewrite E in H; contradiction. Qed.

Lemma tree_bounds_lemma : forall ops l, Forall op_ok ops -> lists l (set_after_all ops) ->
  let t := t_run t_empty ops in
  StronglySorted Z.lt (map fst (bounds t)) /\
  (forall k n, In (k, n) (bounds t) <-> n = endpoint_count l k /\ 0 < n) /\
  (l = [] -> t_begin t = 0 /\ t_end t = 0 /\ t_span t = 0) /\
  (l <> [] ->
     (exists i, In i l /\ f_begin i = t_begin t) /\ (forall i, In i l -> t_begin t <= f_begin i) /\
     (exists i, In i l /\ f_end i = t_end t) /\ (forall i, In i l -> f_end i <= t_end t) /\
     t_span t = t_end t - t_begin t).
Proof.
  intros ops l H [M1 M2] t. destruct (run_empty ops H) as [I [L1 L2]]. fold t in I, L1, L2.
  assert (P : Permutation (all_intervals t) l).
  { apply NoDup_Permutation; auto. intro k; rewrite L2, M2; tauto. }
  destruct (i_bounds t I) as [B1 B2].
  assert (B3 : forall k n, In (k, n) (bounds t) <-> n = cnt l k /\ 0 < n).
  { intros k n. rewrite bt_get_In by auto. rewrite B2, (cnt_perm _ l k P).
    pose proof (cnt_nonneg l k). destruct (Z.eqb_spec (cnt l k) 0); split; intros; try discriminate; try lia.
    - injection H1 as <-. lia.
    - destruct H1 as [-> _]; auto. }
  split; auto. split; auto. split.
  - intros ->. assert (Hb : bounds t = []).
    { destruct (bounds t) as [|[k n] b]; auto. exfalso.
      destruct (proj1 (B3 k n) (or_introl eq_refl)) as [-> Hn]. unfold cnt in Hn; simpl in Hn; lia. }
    unfold t_begin, t_end, t_span, t_len. rewrite Hb.
    rewrite (Permutation_length P). auto.
  - intros Hne.
    assert (Hk : forall k, In k (map fst (bounds t)) <-> 0 < cnt l k).
    { intro k. rewrite in_map_iff. split.
      - intros [[k' n] [<- Hn]]. apply B3 in Hn as [-> Hn]. auto.
      - intros Hn. exists (k, cnt l k); split; auto. apply B3; auto. }
    assert (Hlt : forall i, In i l -> f_begin i < f_end i).
    { intros i Hi. apply M2, L2 in Hi. apply (i_ord t I) in Hi. apply Hi. }
    destruct l as [|i0 l0]; [congruence|]. clear Hne. set (l := i0 :: l0) in *.
    assert (Hb0 : In (f_begin i0) (map fst (bounds t))).
    { apply Hk. apply (cnt_In i0 l). simpl; auto. }
    assert (Kb : In (t_begin t) (map fst (bounds t)) /\ forall k, In k (map fst (bounds t)) -> t_begin t <= k).
    { unfold t_begin. destruct (bounds t) as [|[k n] b]; [contradiction|]. simpl. split; auto.
      simpl in B1. apply SS_cons in B1 as [S1 _]. intros k' [<-|Hk']; [lia|]. specialize (S1 k' Hk'); lia. }
    assert (Ke : In (t_end t) (map fst (bounds t)) /\ forall k, In k (map fst (bounds t)) -> k <= t_end t).
    { unfold t_end. apply in_map_iff in Hb0 as [q [_ Hq]].
      destruct (last_rev _ _ Hq) as [[k n] [r Er]]. rewrite Er.
      assert (E : bounds t = rev r ++ [(k, n)]).
      { rewrite <- (rev_involutive (bounds t)), Er. reflexivity. }
      rewrite E in *. rewrite map_app in *. simpl in *. split; [apply in_or_app; simpl; auto|].
      apply SS_app in B1 as [_ [_ S3]].
      intros k' Hk'. apply in_app_iff in Hk' as [Hk'|[<-|[]]]; [|lia].
      specialize (S3 k' k Hk' (or_introl eq_refl)). lia. }
    destruct Kb as [Kb1 Kb2], Ke as [Ke1 Ke2].
    assert (G1 : forall i, In i l -> t_begin t <= f_begin i).
    { intros i Hi. apply Kb2. apply Hk. apply cnt_In; auto. }
    assert (G2 : forall i, In i l -> f_end i <= t_end t).
    { intros i Hi. apply Ke2. apply Hk. apply cnt_In; auto. }
    split; [|split; [auto|split; [|split; [auto|]]]].
    + apply Hk, cnt_pos_In in Kb1 as [i [Hi [Hb|Hb]]]; [eauto|].
      specialize (G1 i Hi). specialize (Hlt i Hi). lia.
    + apply Hk, cnt_pos_In in Ke1 as [i [Hi [Hb|Hb]]]; [|eauto].
      specialize (G2 i Hi). specialize (Hlt i Hi). lia.
    + unfold t_span, t_len. rewrite (Permutation_length P). reflexivity.
Qed.

(** ** C12 *)
Lemma search_tree_sorted : forall t, search_tree t <-> StronglySorted Z.le (keys t).
Proof.
  induction t as [|x s l IHl r IHr d b]; simpl; [split; auto using SSorted_nil|].
  rewrite SS_app, SS_cons, IHl, IHr. split.
  - intros [H1 [H2 [H3 H4]]]. repeat split; auto. intros a c Ha [<-|Hc]; auto.
    specialize (H1 a Ha). specialize (H2 c Hc). lia.
  - intros [H1 [[H2 H3] H4]]. repeat split; auto. intros k Hk; apply H4; simpl; auto.
Qed.
Lemma one_per_node_inorder : forall t, one_per_node t <->
  Forall (fun p => exists i, snd p = [i] /\ f_begin i = fst p) (inorder t).
Proof.
  induction t as [|x s l IHl r IHr d b]; simpl; [split; auto|].
  rewrite Forall_app, Forall_cons_iff, IHl, IHr. simpl. tauto.
Qed.

Record inv_add (t : tree) : Prop := {
  ia_inv : inv t;
  ia_bal : balanced (top_node t);
  ia_one : one_per_node (top_node t);
  ia_perm : Permutation (nd_elems (top_node t)) (all_intervals t) }.

Lemma t_add_inv_add : forall t i, inv_add t -> null_or_ordinary i -> inv_add (snd (t_add t i)).
Proof.
  intros t i [I B O1 P] Hi. destruct (t_add_spec t i I Hi) as [A1 [A2 [A3 [A4 A5]]]].
  destruct (t_contains t i) eqn:Ec.
  { apply contains_In in Ec. rewrite A4 by auto. split; auto. }
  apply contains_false in Ec. destruct Hi as [Hn|O].
  { rewrite A3 by auto. split; auto. }
  destruct (A5 O Ec) as [E1 [E2 E3]]. split; auto.
  - destruct (top_node t) as [|x s l r d b] eqn:Et; cbn [is_nil] in E2.
    + rewrite E2. simpl. lia.
    + destruct (nd_add_avl (Nd x s l r d b) i) with (t' := top_node (snd (t_add t i))) as [X _]; auto.
      * discriminate.
      * split; auto. rewrite <- Et; apply I.
      * rewrite <- Et; apply I.
  - apply one_per_node_inorder. destruct E3 as [l1 [l2 [H1 [H2 _]]]].
    apply one_per_node_inorder in O1. rewrite H1 in O1. rewrite H2.
    rewrite Forall_app in *. destruct O1. split; auto. constructor; auto. exists i; auto.
  - rewrite E1. rewrite (inserted_elems _ _ _ E3), P. apply Permutation_cons_append.
Qed.
Lemma t_update_inv_add : forall l t, inv_add t -> Forall null_or_ordinary l -> inv_add (snd (t_update t l)).
Proof.
  induction l as [|i l IH]; intros t I H; simpl; auto. inversion H; subst.
  assert (A := t_add_inv_add t i I H2). destruct (t_add t i) as [[|] t']; simpl in *; auto.
Qed.

Lemma height_bound : forall t, balanced t -> 2 ^ height t <= (Z.of_nat (nd_size t) + 1) ^ 2 /\ 0 <= height t.
Proof.
  assert (Hmono : forall a, 0 <= a -> 2 ^ (a + 1) = 2 * 2 ^ a).
  { intros; rewrite Z.pow_add_r by lia. change (2 ^ 1) with 2. lia. }
  induction t as [|x s l IHl r IHr d b]; intros B.
  - simpl. lia.
  - cbn [balanced height nd_size] in *. destruct B as [B0 [Bl Br]].
    destruct (IHl Bl) as [Hl Nl]. destruct (IHr Br) as [Hr Nr]. split; [|lia].
    set (a := Z.of_nat (nd_size l) + 1) in *. set (c := Z.of_nat (nd_size r) + 1) in *.
    replace (Z.of_nat (S (nd_size l + nd_size r)) + 1) with (a + c) by lia.
    assert (0 < a /\ 0 < c) as [Pa Pc] by lia. clearbody a c.
    set (hl := height l) in *. set (hr := height r) in *. clearbody hl hr.
    assert (Hc : hr = hl \/ hr = hl + 1 \/ hl = hr + 1) by lia.
    rewrite !Z.pow_2_r in *.
    destruct Hc as [E|[E|E]]; subst.
    + rewrite Z.max_id, Z.add_comm, Hmono by lia. 
      assert (0 < 2 ^ hl) by (apply Z.pow_pos_nonneg; lia). nia.
    + rewrite Z.max_r, Z.add_comm, !Hmono by lia. rewrite Hmono in Hr by lia.
      assert (0 < 2 ^ hl) by (apply Z.pow_pos_nonneg; lia).
      assert (2 ^ hl <= a * c) by (destruct (Z.le_ge_cases a c); nia). nia.
    + rewrite Z.max_l, Z.add_comm, !Hmono by lia. rewrite Hmono in Hl by lia.
      assert (0 < 2 ^ hr) by (apply Z.pow_pos_nonneg; lia).
      assert (2 ^ hr <= a * c) by (destruct (Z.le_ge_cases a c); nia). nia.
Qed.

Lemma one_per_node_size : forall t, one_per_node t -> nd_size t = List.length (nd_elems t).
Proof.
  induction t as [|x s l IHl r IHr d b]; simpl; auto. intros [[i [-> _]] [H1 H2]].
  rewrite !app_length, IHl, IHr by auto. simpl; lia.
Qed.

Lemma tree_avl_lemma : forall ops, Forall insert_only ops ->
  let t := t_run t_empty ops in
  Permutation (nd_elems (top_node t)) (all_intervals t) /\
  NoDup (nd_elems (top_node t)) /\
  one_per_node (top_node t) /\
  search_tree (top_node t) /\ records_right (top_node t) /\ balanced (top_node t) /\
  2 ^ height (top_node t) <= (Z.of_nat (t_len t) + 1) ^ 2.
Proof.
  intros ops H t.
  assert (A : inv_add t).
  { assert (G : forall ops t, Forall insert_only ops -> inv_add t -> inv_add (t_run t ops)).
    { clear. induction ops as [|o ops IH]; intros t H I; auto. inversion H; subst.
      unfold t_run in *. simpl. apply IH; auto.
      destruct o; simpl in *; try contradiction.
      - apply t_add_inv_add; auto.
      - apply t_update_inv_add; auto. }
    apply G; auto. split; simpl; auto. apply inv_empty. }
  destruct A as [I B O P].
  split; auto. split; [eapply Permutation_NoDup; [symmetry; exact P|apply I]|].
  split; auto. split; [apply search_tree_sorted; apply I|]. split; [apply I|]. split; auto.
  destruct (height_bound _ B) as [Hb _].
  unfold t_len. rewrite <- (Permutation_length P), <- one_per_node_size; auto.
Qed.

(** ** C13 *)
Lemma tree_remove_lemma : forall ops i, Forall op_ok ops -> null_or_ordinary i ->
  let t := t_run t_empty ops in
  t_remove t i = (Err ValueError, t) /\
  (t_contains t i = true ->
     let t' := snd (t_discard t i) in
     t_contains t' i = false /\ In i (nd_elems (top_node t')) /\ top_node t' = top_node t).
Proof.
  intros ops i H Hi t. destruct (run_empty ops H) as [I _]. fold t in I.
  split; [apply t_remove_spec; auto|].
  intros Hc t'. apply contains_In in Hc. destruct (t_discard_spec t i I Hi) as [_ [_ [A3 [A4 _]]]].
  fold t' in A3, A4. split; [|split; auto].
  - apply contains_false. rewrite A3. tauto.
  - rewrite A4. apply I; auto.
Qed.

(** ** queries *)
Lemma calm_contains_point : forall t p, calm t -> nd_contains_point t p = false.
Proof.
  induction t as [|x s l IHl r IHr d b]; intros p H; simpl; auto.
  apply calm_node in H as [H1 [H2 H3]]. rewrite IHl, IHr by auto.
  assert (E : existsb (fun k => f_contains_point k p) s = false).
  { clear -H3. induction s as [|i s IH]; simpl; auto. rewrite ordinary_no_hit by (apply H3; simpl; auto).
    apply IH; intros; apply H3; simpl; auto. }
  rewrite E. destruct (x <? p); auto.
Qed.
Lemma tree_queries_lemma : forall ops, Forall op_ok ops ->
  let t := t_run t_empty ops in
  (forall p, t_overlaps_point t p = false) /\ (forall b e, t_overlaps_range t b e = false) /\
  (forall i p, t_contains t i = true -> t_at_number t p = Err AttributeError /\
     t_getitem_number t p = Err AttributeError /\
     (forall e, p < e -> t_overlap_numbers t p e = Err AttributeError)) /\
  (forall i b e, t_contains t i = true -> b < e -> t_getitem_slice t (Some b) (Some e) = Err AttributeError).
Proof.
  intros ops H t. destruct (run_empty ops H) as [I _]. fold t in I.
  assert (Q : forall p, t_overlaps_point t p = false).
  { intro p. unfold t_overlaps_point. destruct (t_len t =? 0)%nat; auto. apply calm_contains_point. apply I. }
  assert (N : forall i, t_contains t i = true -> is_nil (top_node t) = false).
  { intros i Hc. apply contains_In, (i_incl t I) in Hc. destruct (top_node t); [contradiction|auto]. }
  split; auto. split; [|split].
  - intros b e. unfold t_overlaps_range. destruct (t_len t =? 0)%nat; auto. destruct (e <=? b); auto.
    rewrite Q. simpl. match goal with |- existsb ?f ?l = false => induction l; simpl; auto end.
    rewrite Q; auto.
  - intros i p Hc. unfold t_getitem_number, t_at_number, t_overlap_numbers. rewrite (N i Hc).
    repeat split; auto. intros e Hp. destruct (Z.leb_spec e p); auto; lia.
  - intros i b e Hc Hb. unfold t_getitem_slice, t_overlap_numbers. rewrite (N i Hc).
    destruct (Z.leb_spec e b); auto; lia.
Qed.

(** ** merging *)
Lemma adjacent_from : forall (l : list fiv) (R : fiv -> fiv -> Prop) (Good : fiv -> fiv -> Prop) a b l1 l2 l3,
  l = l1 ++ a :: l2 ++ b :: l3 ->
  (forall c, Good a b -> In c l2 -> Good a c) -> Good a b -> exists c, adjacent l a c /\ Good a c.
Proof.
  intros l R Good a b l1 l2 l3 E H G. destruct l2 as [|c l2].
  - exists b; split; auto. exists l1, l3; auto.
  - exists c; split; [|apply H; simpl; auto]. exists l1, (l2 ++ b :: l3). auto.
Qed.

Lemma merge_overlaps_lemma : forall ops strict, Forall op_ok ops ->
  let t := t_run t_empty ops in
  let clash := exists a b, t_contains t a = true /\ t_contains t b = true /\ a <> b /\
       f_begin a <= f_begin b /\ (f_begin b < f_end a \/ (strict = false /\ f_begin b = f_end a)) in
  (clash -> t_merge_overlaps strict t = (Err NameError, t)) /\
  (~ clash -> fst (t_merge_overlaps strict t) = Ok tt /\
     forall k, t_contains (snd (t_merge_overlaps strict t)) k = t_contains t k).
Proof.
  intros ops strict H t clash. destruct (run_empty ops H) as [I _]. fold t in I.
  unfold t_merge_overlaps.
  set (f := fun lower higher => _).
  destruct (t_merge_spec f t I) as [A1 [A2 [A3 A4]]].
  assert (Ff : forall a b, f a b = true <-> f_begin b < f_end a \/ (strict = false /\ f_begin b = f_end a)).
  { intros a b. unfold f. rewrite orb_true_iff, andb_true_iff, Z.ltb_lt, negb_true_iff, Z.eqb_eq. tauto. }
  assert (P := py_sort_perm f_ltb (all_intervals t)).
  set (l := py_sort f_ltb (all_intervals t)) in *.
  assert (Sl : StronglySorted (fun a b => f_ltb b a = false) l).
  { destruct f_order_lemma as [T0 T1 T2 T3]. apply py_sort_sorted.
    { intros x y U. destruct (f_ltb y x) eqn:V; auto. rewrite <- (T1 x). symmetry. eapply T2; eauto. }
    intros x y z U V.
    destruct (f_ltb z x) eqn:Ez; auto. exfalso.
    destruct (T3 x y) as [K|[K|K]].
    - rewrite (T2 z x y Ez K) in V. discriminate.
    - subst y. congruence.
    - congruence. }
  assert (Q : clash <-> exists a b, adjacent l a b /\ f a b = true).
  { split.
    - intros [a [b [Ca [Cb [Nab [Hab Hf]]]]]].
      apply contains_In in Ca, Cb.
      eapply Permutation_in in Ca; [|exact P]. eapply Permutation_in in Cb; [|exact P].
      assert (C : exists u v, In u l /\ In v l /\ (exists l1 l2 l3, l = l1 ++ u :: l2 ++ v :: l3)
               /\ (f_begin v < f_end u \/ (strict = false /\ f_begin v = f_end u))).
      { apply in_split in Ca as [l1 [l2 E]]. rewrite E in Cb. apply in_app_iff in Cb as [Cb|[Cb|Cb]].
        - exists b, a. apply in_split in Cb as [l3 [l4 E2]]. subst l1.
          split; [rewrite E, !in_app_iff; simpl; auto|]. split; [rewrite E, !in_app_iff; simpl; auto|].
          split; [exists l3, l4, l2; rewrite E, <- app_assoc; auto|].
          (* b before a in order and begin a <= begin b: equal begins *)
          rewrite E in Sl. rewrite <- app_assoc in Sl. apply SS_app in Sl as [_ [Sl _]].
          apply SS_cons in Sl as [Sl _]. specialize (Sl a). rewrite in_app_iff in Sl. 
          specialize (Sl (or_intror (or_introl eq_refl))).
          assert (f_begin b <= f_begin a).
          { destruct (Z.le_gt_cases (f_begin b) (f_begin a)); auto.
            assert (f_ltb a b = true) by (apply f_ltb_spec; auto). congruence. }
          assert (ordinary b) as [Lb _].
          { apply (i_ord t I). eapply Permutation_in; [symmetry; exact P|]. rewrite E, !in_app_iff; simpl; auto. }
          left; lia.
        - congruence.
        - exists a, b. apply in_split in Cb as [l3 [l4 E2]]. subst l2.
          split; [rewrite E, !in_app_iff; simpl; auto|]. split; [rewrite E, !in_app_iff; simpl; rewrite in_app_iff; simpl; auto|].
          split; [exists l1, l3, l4; auto|]. auto. }
      destruct C as [u [v [Iu [Iv [[l1 [l2 [l3 E]]] Huv]]]]].
      destruct l2 as [|w l2].
      + exists u, v. split; [exists l1, l3; auto|]. apply Ff; auto.
      + exists u, w. split; [exists l1, (l2 ++ v :: l3); auto|]. apply Ff.
        rewrite E in Sl. apply SS_app in Sl as [_ [Sl _]]. simpl in Sl. apply SS_cons in Sl as [_ Sl].
        apply SS_cons in Sl as [Sl _]. specialize (Sl v). rewrite in_app_iff in Sl.
        specialize (Sl (or_intror (or_introl eq_refl))).
        assert (f_begin w <= f_begin v).
        { destruct (Z.le_gt_cases (f_begin w) (f_begin v)); auto.
          assert (f_ltb v w = true) by (apply f_ltb_spec; auto). congruence. }
        destruct Huv as [Huv|[? Huv]]; [left; lia|]. destruct (Z.eq_dec (f_begin w) (f_end u)); [right; auto|left; lia].
    - intros [a [b [[l1 [l2 E]] Hf]]]. exists a, b.
      assert (Ia : In a (all_intervals t) /\ In b (all_intervals t)).
      { split; (eapply Permutation_in; [symmetry; exact P|rewrite E, in_app_iff; simpl; auto]). }
      split; [apply contains_In; tauto|]. split; [apply contains_In; tauto|].
      assert (ND : NoDup l) by (eapply Permutation_NoDup; [exact P|apply I]).
      split.
      { intros ->. rewrite E in ND. apply NoDup_remove_2 in ND. apply ND, in_app_iff; simpl; auto. }
      split; [|apply Ff; auto].
      rewrite E in Sl. apply SS_app in Sl as [_ [Sl _]]. apply SS_cons in Sl as [Sl _].
      specialize (Sl b (or_introl eq_refl)).
      destruct (Z.le_gt_cases (f_begin a) (f_begin b)); auto.
      assert (f_ltb b a = true) by (apply f_ltb_spec; auto). congruence. }
  split.
  - intro C. apply A3. apply Q; auto.
  - intro C. split; [apply A4; rewrite <- Q; auto|].
    intro k. destruct (t_contains t k) eqn:E.
    + apply contains_In. apply A2. apply contains_In; auto.
    + apply contains_false. rewrite A2. apply contains_false; auto.
Qed.

Lemma merge_others_lemma : forall ops, Forall op_ok ops ->
  let t := t_run t_empty ops in
  forall o, (o = TMergeEquals \/ exists d s, o = TMergeNeighbors d s) ->
  (t_step t o = (Err NameError, t) \/
   (fst (t_step t o) = Ok tt /\ forall k, t_contains (snd (t_step t o)) k = t_contains t k)).
Proof.
  intros ops H t o Ho. destruct (run_empty ops H) as [I _]. fold t in I.
  assert (G : forall f, t_merge_with f t = (Err NameError, t) \/
    (fst (t_merge_with f t) = Ok tt /\ forall k, t_contains (snd (t_merge_with f t)) k = t_contains t k)).
  { intro f. destruct (t_merge_spec f t I) as [A1 [A2 [A3 A4]]].
    assert (K : forall k, t_contains (snd (t_merge_with f t)) k = t_contains t k).
    { intro k. destruct (t_contains t k) eqn:E.
      + apply contains_In. apply A2. apply contains_In; auto.
      + apply contains_false. rewrite A2. apply contains_false; auto. }
    assert (C : t_merge_with f t = (Err NameError, t) \/ fst (t_merge_with f t) = Ok tt).
    { clear A1 A2 A3 A4 K. unfold t_merge_with.
      assert (P := py_sort_perm f_ltb (all_intervals t)).
      destruct (py_sort f_ltb (all_intervals t)); auto. destruct (merge_scan f f0 l); auto.
      destruct (t_init_spec (f0 :: l)) as [t' [T1 _]].
      { intros i Hi. apply I. eapply Permutation_in; [symmetry; exact P|auto]. }
      rewrite T1; auto. }
    destruct C; auto. }
  destruct Ho as [->|[d [s ->]]]; apply G.
Qed.

(** ** constructor *)
Lemma tree_init_lemma : forall ivs, (forall i, In i ivs -> ordinary i) ->
  exists t, t_init ivs = Ok t /\ (forall k, t_contains t k = true <-> In k ivs) /\
    (NoDup ivs -> t_len t = List.length ivs) /\
    Permutation (nd_elems (top_node t)) (all_intervals t) /\
    search_tree (top_node t) /\ records_right (top_node t).
Proof.
  intros ivs Ho. destruct (t_init_spec ivs Ho) as [t [T1 [T2 [T3 T4]]]].
  exists t. split; auto. split; [intro k; rewrite contains_In; auto|]. split.
  - intro N. unfold t_len. apply Permutation_length. apply NoDup_Permutation; auto. apply T2.
  - split; auto. split; [apply search_tree_sorted; apply T2|apply T2].
Qed.
Lemma tree_init_null : forall ivs, (exists i, In i ivs /\ f_end i <= f_begin i) -> t_init ivs = Err ValueError.
Proof.
  intros ivs [i [H1 H2]]. unfold t_init.
  destruct (set_update_nodup ivs [] (NoDup_nil _)) as [_ [H3 _]].
  replace (existsb f_is_null (set_update [] ivs)) with true; auto.
  symmetry. apply existsb_exists. exists i. split; [apply H3; auto|apply null_dec; auto].
Qed.
Lemma from_sorted_loops : forall fuel i, near (f_begin i) (f_end i) -> from_sorted fuel [i] = Err RecursionError.
Proof.
  induction fuel as [|f IH]; intros i H; auto.
  cbn [from_sorted List.length]. change (Nat.div 1 2) with 0%nat. cbn [nth filter].
  rewrite Z.ltb_irrefl. rewrite (proj2 (zclose_near (f_end i) (f_begin i)) (proj1 (near_sym _ _) H)).
  cbn [negb andb]. rewrite IH by auto. reflexivity.
Qed.

(** ** merge_equals and merge_neighbors: when exactly they raise *)
Lemma sorted_members : forall t, inv t -> StronglySorted (fun a b => f_ltb b a = false) (py_sort f_ltb (all_intervals t)).
Proof.
  intros t I. destruct f_order_lemma as [T0 T1 T2 T3]. apply py_sort_sorted.
  { intros x y U. destruct (f_ltb y x) eqn:V; auto. rewrite <- (T1 x). symmetry. eapply T2; eauto. }
  intros x y z U V. destruct (f_ltb z x) eqn:Ez; auto. exfalso. destruct (T3 x y) as [K|[K|K]].
  - rewrite (T2 z x y Ez K) in V. discriminate.
  - subst y. congruence.
  - congruence.
Qed.
Lemma adjacent_next : forall t a b, inv t ->
  (adjacent (py_sort f_ltb (all_intervals t)) a b <-> next_member t a b).
Proof.
  intros t a b I. pose proof (sorted_members t I) as SL. assert (P := py_sort_perm f_ltb (all_intervals t)).
  assert (ND : NoDup (py_sort f_ltb (all_intervals t))) by (eapply Permutation_NoDup; [exact P|apply I]).
  assert (MB : forall k, t_contains t k = true <-> In k (py_sort f_ltb (all_intervals t))).
  { intro k. rewrite contains_In. split; intro H; [eapply Permutation_in; [exact P|exact H]|eapply Permutation_in; [symmetry; exact P|exact H]]. }
  set (l := py_sort f_ltb (all_intervals t)) in *. clearbody l. clear P.
  destruct f_order_lemma as [T0 T1 T2 T3].
  assert (LT : forall x y, f_ltb x y = false -> x = y \/ f_ltb y x = true).
  { intros x y F. destruct (T3 x y) as [K|[K|K]]; auto. congruence. }
  assert (OR : forall l1 x l2 y, l = l1 ++ x :: l2 -> In y l2 -> f_ltb x y = true).
  { intros l1 x l2 y E IN. rewrite E in SL, ND. apply SS_app in SL as [_ [SL _]]. apply SS_cons in SL as [SL _]. destruct (LT _ _ (SL y IN)) as [K|K]; auto.
    subst y. exfalso. apply NoDup_remove_2 in ND. apply ND, in_app_iff. auto. }
  assert (OL : forall l1 x l2 y, l = l1 ++ x :: l2 -> In y l1 -> f_ltb y x = true).
  { intros l1 x l2 y E IN. apply in_split in IN as [m1 [m2 ->]]. eapply (OR m1 y (m2 ++ x :: l2)); [rewrite E, <- app_assoc; reflexivity|]. apply in_app_iff. right. left. auto. }
  assert (NO : forall x y, f_ltb x y = true -> f_ltb y x = true -> False).
  { intros x y U V. pose proof (T2 _ _ _ U V) as W. rewrite T1 in W. discriminate. }
  unfold next_member. split.
  - intros [l1 [l2 E]]. split; [apply MB; rewrite E, in_app_iff; simpl; auto|]. split; [apply MB; rewrite E, in_app_iff; simpl; auto|].
    split; [apply f_ltb_spec; eapply (OR l1 a (b :: l2)); simpl; auto|].
    intros c Hc [C1 C2]. apply f_ltb_spec in C1. apply f_ltb_spec in C2. apply MB in Hc. rewrite E in Hc. apply in_app_iff in Hc as [Hc|[Hc|[Hc|Hc]]].
    + eapply NO; [exact C1|]. eapply OL; eauto.
    + subst c. rewrite T1 in C1. discriminate.
    + subst c. rewrite T1 in C2. discriminate.
    + eapply NO; [exact C2|]. eapply (OR (l1 ++ [a]) b l2); auto. rewrite <- app_assoc. auto.
  - intros [Ha [Hb [AB N]]]. apply f_ltb_spec in AB. apply MB in Ha. apply in_split in Ha as [l1 [l2 E]]. apply MB in Hb. rewrite E in Hb. apply in_app_iff in Hb as [Hb|[Hb|Hb]].
    + exfalso. eapply NO; [exact AB|]. eapply OL; eauto.
    + subst b. rewrite T1 in AB. discriminate.
    + destruct l2 as [|c l2]; [destruct Hb|]. destruct Hb as [->|Hb]; [exists l1, l2; auto|]. exfalso. apply (N c).
      * apply MB. rewrite E, in_app_iff. simpl. auto.
      * split; apply f_ltb_spec; [eapply (OR l1 a (c :: l2)); simpl; auto|]. eapply (OR (l1 ++ [a]) c l2); auto. rewrite <- app_assoc. auto.
Qed.

Lemma merge_conditions_lemma : forall ops, Forall op_ok ops ->
  let t := t_run t_empty ops in
  ((exists a b, t_contains t a = true /\ t_contains t b = true /\ a <> b /\ f_begin a = f_begin b /\ f_end a = f_end b) ->
     t_merge_equals t = (Err NameError, t)) /\
  ((forall a b, t_contains t a = true -> t_contains t b = true -> f_begin a = f_begin b -> f_end a = f_end b -> a = b) ->
     fst (t_merge_equals t) = Ok tt) /\
  (forall d strict, (exists a b, next_member t a b /\ neighbours d strict a b) -> t_merge_neighbors d strict t = (Err NameError, t)) /\
  (forall d strict, (forall a b, next_member t a b -> ~ neighbours d strict a b) -> fst (t_merge_neighbors d strict t) = Ok tt).
Proof.
  intros ops H t. destruct (run_empty ops H) as [I _]. fold t in I.
  destruct f_order_lemma as [T0 T1 T2 T3].
  assert (NF : forall d s lower higher, (let margin := f_begin higher - f_end lower in (margin <=? d) && negb (s && (margin <? 0))) = true <-> neighbours d s lower higher).
  { intros d s a b. cbv zeta. unfold neighbours. rewrite andb_true_iff, Z.leb_le, negb_true_iff. destruct s; cbn [andb].
    - rewrite Z.ltb_ge. intuition lia.
    - intuition discriminate. }
  assert (RF : forall a b, f_range_matches b a = true <-> f_begin a = f_begin b /\ f_end a = f_end b).
  { intros a b. unfold f_range_matches. rewrite andb_true_iff, !Z.eqb_eq. intuition. }
  split; [|split; [|split]].
  - intros [a [b [Ha [Hb [N [B E]]]]]]. unfold t_merge_equals. destruct (t_merge_spec (fun lower higher => f_range_matches higher lower) t I) as [_ [_ [A3 _]]]. apply A3.
    assert (C : exists a b, t_contains t a = true /\ t_contains t b = true /\ f_begin a = f_begin b /\ f_end a = f_end b /\ f_ltb a b = true).
    { destruct (T3 a b) as [K|[K|K]]; [exists a, b| congruence |exists b, a]; intuition. }
    clear a b Ha Hb N B E. destruct C as [a [b [Ha [Hb [B [E AB]]]]]].
    (* take the member right after a *)
    assert (P := py_sort_perm f_ltb (all_intervals t)). pose proof (sorted_members t I) as SL.
    assert (ND : NoDup (py_sort f_ltb (all_intervals t))) by (eapply Permutation_NoDup; [exact P|apply I]).
    assert (MB : forall k, t_contains t k = true -> In k (py_sort f_ltb (all_intervals t))).
    { intros k K. eapply Permutation_in; [exact P|]. apply contains_In. auto. }
    set (l := py_sort f_ltb (all_intervals t)) in *. clearbody l. clear P A3.
    apply MB in Ha. apply in_split in Ha as [l1 [l2 EL]]. apply MB in Hb. subst l.
    apply in_app_iff in Hb as [Hb|[Hb|Hb]].
    + exfalso. apply SS_app in SL as [_ [_ SL]]. pose proof (SL b a Hb (or_introl eq_refl)) as X. congruence.
    + subst b. rewrite T1 in AB. discriminate.
    + destruct l2 as [|c l2]; [destruct Hb|]. exists a, c. split; [exists l1, l2; auto|]. apply RF.
      destruct Hb as [->|Hb]; auto. apply SS_app in SL as [_ [SL _]]. apply SS_cons in SL as [S1 SL]. apply SS_cons in SL as [S2 _].
      pose proof (S1 c (or_introl eq_refl)) as X. pose proof (S2 b Hb) as Y.
      destruct (Z.lt_trichotomy (f_begin c) (f_begin a)) as [K|[K|K]].
      { assert (f_ltb c a = true) by (apply f_ltb_spec; auto). congruence. }
      2:{ assert (f_ltb b c = true) by (apply f_ltb_spec; left; lia). congruence. }
      split; auto. destruct (Z.lt_trichotomy (f_end c) (f_end a)) as [K'|[K'|K']]; auto.
      { assert (f_ltb c a = true) by (apply f_ltb_spec; auto). congruence. }
      { assert (f_ltb b c = true) by (apply f_ltb_spec; right; left; lia). congruence. }
  - intros U. unfold t_merge_equals. destruct (t_merge_spec (fun lower higher => f_range_matches higher lower) t I) as [_ [_ [_ A4]]]. apply A4.
    intros [a [b [AD R]]]. apply RF in R as [R1 R2]. apply (adjacent_next t a b I) in AD as [Ha [Hb [AB _]]]. assert (a = b) by auto. subst b. apply f_ltb_spec in AB. rewrite T1 in AB. discriminate.
  - intros d s [a [b [NX NB]]]. unfold t_merge_neighbors. match goal with |- t_merge_with ?f t = _ => destruct (t_merge_spec f t I) as [_ [_ [A3 _]]] end.
    apply A3. exists a, b. split; [apply adjacent_next; auto|]. apply NF. auto.
  - intros d s N. unfold t_merge_neighbors. match goal with |- fst (t_merge_with ?f t) = _ => destruct (t_merge_spec f t I) as [_ [_ [_ A4]]] end.
    apply A4. intros [a [b [AD R]]]. apply NF in R. apply (adjacent_next t a b I) in AD. exact (N a b AD R).
Qed.

(** ** slices *)
Lemma slice_lemma : forall ops, Forall op_ok ops -> let t := t_run t_empty ops in
  (exists l, t_getitem_slice t None None = Ok l /\ lists l (set_after_all ops)) /\
  (forall i b, t_contains t i = true -> b < f_end i -> t_getitem_slice t (Some b) None = Err AttributeError) /\
  (forall i e, t_contains t i = true -> f_begin i < e -> t_getitem_slice t None (Some e) = Err AttributeError) /\
  (forall b e, e <= b -> t_getitem_slice t (Some b) (Some e) = Ok []).
Proof.
  intros ops H t. destruct (run_empty ops H) as [I L]. fold t in I, L.
  assert (N : forall i, t_contains t i = true -> is_nil (top_node t) = false).
  { intros i Hc. apply contains_In in Hc. apply (i_incl t I) in Hc. destruct (top_node t); [destruct Hc|reflexivity]. }
  pose proof (tree_bounds_lemma ops (all_intervals t) H L) as [_ [_ [_ NE]]]. fold t in NE.
  assert (NEc : forall i, t_contains t i = true -> all_intervals t <> []). { intros i K E. apply contains_In in K. rewrite E in K. destruct K. }
  split; [|split; [|split]].
  - exists (all_intervals t). split; auto.
  - intros i b Hc Hb. unfold t_getitem_slice, t_overlap_numbers. cbv zeta. rewrite (N i Hc). destruct (NE (NEc i Hc)) as [_ [_ [_ [M _]]]]. apply contains_In in Hc. specialize (M i Hc).
    destruct (Z.leb_spec (t_end t) b); [lia|]. reflexivity.
  - intros i e Hc He. unfold t_getitem_slice, t_overlap_numbers. cbv zeta. rewrite (N i Hc). destruct (NE (NEc i Hc)) as [_ [M _]]. apply contains_In in Hc. specialize (M i Hc).
    destruct (Z.leb_spec e (t_begin t)); [lia|]. reflexivity.
  - intros b e Hb. unfold t_getitem_slice, t_overlap_numbers. cbv zeta. destruct (is_nil (top_node t)); auto. destruct (Z.leb_spec e b); [reflexivity|lia].
Qed.
