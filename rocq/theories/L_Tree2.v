From Coq Require Import Lia Permutation Sorted.
From Verif Require Import PyBase L_Base M_FloatInterval M_Node M_Tree S_Interval S_FloatInterval S_Tree L_FloatInterval L_Tree.
Open Scope Z_scope.
#[local] Arguments Z.add : simpl never.
#[local] Arguments Z.sub : simpl never.
#[local] Arguments Z.max : simpl never.

(** ** boundary table *)
Lemma bt_get_set : forall t k n k', bt_get (bt_set t k n) k' = if k =? k' then Some n else bt_get t k'.
Proof.
  induction t as [|[a m] t IH]; intros k n k'; simpl.
  - reflexivity.
  - destruct (Z.eqb_spec a k); [subst; simpl; destruct (k =? k'); auto|].
    destruct (Z.ltb_spec k a); simpl; auto.
    rewrite IH. destruct (Z.eqb_spec a k'), (Z.eqb_spec k k'); auto; lia.
Qed.
Lemma bt_get_del : forall t k k', bt_get (bt_del t k) k' = if k =? k' then None else bt_get t k'.
Proof.
  induction t as [|[a m] t IH]; intros k k'; simpl.
  - destruct (k =? k'); auto.
  - destruct (Z.eqb_spec a k); simpl.
    + rewrite IH. subst. destruct (Z.eqb_spec k k'); auto.
    + rewrite IH. destruct (Z.eqb_spec a k'), (Z.eqb_spec k k'); auto; lia.
Qed.
Notation sortedk t := (StronglySorted Z.lt (map fst t)).
Lemma bt_set_keys : forall t k n x, In x (map fst (bt_set t k n)) -> x = k \/ In x (map fst t).
Proof.
  induction t as [|[a m] t IH]; intros k n x; simpl.
  - intuition.
  - destruct (Z.eqb_spec a k); [simpl; intuition|]. destruct (Z.ltb_spec k a); simpl; [intuition|].
    intros [<-|H']; auto. apply IH in H'; tauto.
Qed.
Lemma bt_set_sorted : forall (t : list (Z * Z)) k n, sortedk t -> sortedk (bt_set t k n).
Proof.
  induction t as [|[a m] t IH]; intros k n H; simpl.
  - constructor; constructor.
  - simpl in H. apply SS_cons in H as [H1 H2].
    destruct (Z.eqb_spec a k); [subst; simpl; apply SS_cons; auto|].
    destruct (Z.ltb_spec k a); simpl; apply SS_cons.
    + split; [|apply SS_cons; auto]. intros b [<-|Hb]; auto. specialize (H1 b Hb). lia.
    + split; auto. intros b Hb. apply bt_set_keys in Hb as [->|Hb]; auto. lia.
Qed.
Lemma bt_del_sorted : forall (t : list (Z * Z)) k, sortedk t -> sortedk (bt_del t k).
Proof.
  induction t as [|[a m] t IH]; intros k H; simpl; auto.
  simpl in H. apply SS_cons in H as [H1 H2]. destruct (negb (a =? k)); simpl; auto.
  apply SS_cons; split; auto. intros b Hb. apply H1.
  apply in_map_iff in Hb as [q [<- Hq]]. apply filter_In in Hq. apply in_map; tauto.
Qed.
Lemma bt_get_In : forall (t : list (Z * Z)) k n, sortedk t -> (In (k, n) t <-> bt_get t k = Some n).
Proof.
  induction t as [|[a m] t IH]; intros k n H; simpl; [split; [contradiction|discriminate]|].
  simpl in H. apply SS_cons in H as [H1 H2]. destruct (Z.eqb_spec a k).
  - subst. split.
    + intros [E|E]; [congruence|]. exfalso. apply (in_map fst) in E. apply H1 in E. simpl in E; lia.
    + intros E; injection E as ->; auto.
  - rewrite <- IH by auto. split; [intros [E|E]; auto; congruence|auto].
Qed.

Notation cnt := endpoint_count.
Definition ind (b : bool) : Z := if b then 1 else 0.
Definition bcount (t : list (Z * Z)) (c : Z -> Z) : Prop :=
  sortedk t /\ forall k, bt_get t k = if c k =? 0 then None else Some (c k).

Lemma bt_inc_ok : forall t c k0, bcount t c -> (forall k, 0 <= c k) ->
  bcount (bt_inc t k0) (fun k => c k + ind (k0 =? k)).
Proof.
  intros t c k0 [H1 H2] Hp. unfold bt_inc. rewrite H2. unfold bcount, ind.
  destruct (Z.eqb_spec (c k0) 0); (split; [apply bt_set_sorted; auto|]); intro k; rewrite bt_get_set.
  - destruct (Z.eqb_spec k0 k).
    + subst. rewrite e. reflexivity.
    + rewrite Z.add_0_r, H2. reflexivity.
  - destruct (Z.eqb_spec k0 k).
    + subst. specialize (Hp k). destruct (Z.eqb_spec (c k + 1) 0); auto; lia.
    + rewrite Z.add_0_r, H2. reflexivity.
Qed.
Lemma bt_dec_ok : forall t c k0, bcount t c -> (forall k, 0 <= c k) -> 0 < c k0 ->
  exists t', bt_dec t k0 = Ok t' /\ bcount t' (fun k => c k - ind (k0 =? k)).
Proof.
  intros t c k0 [H1 H2] Hp Hk. unfold bt_dec. rewrite H2.
  destruct (Z.eqb_spec (c k0) 0); [lia|]. eexists; split; [reflexivity|].
  unfold bcount, ind. destruct (Z.eqb_spec (c k0) 1).
  - split; [apply bt_del_sorted; auto|]. intro k; rewrite bt_get_del.
    destruct (Z.eqb_spec k0 k).
    + subst. rewrite e. reflexivity.
    + rewrite Z.sub_0_r, H2; reflexivity.
  - split; [apply bt_set_sorted; auto|]. intro k; rewrite bt_get_set.
    destruct (Z.eqb_spec k0 k).
    + subst. destruct (Z.eqb_spec (c k - 1) 0); auto; lia.
    + rewrite Z.sub_0_r, H2; reflexivity.
Qed.
Lemma bcount_ext : forall t c c', bcount t c -> (forall k, c k = c' k) -> bcount t c'.
Proof. intros t c c' [H1 H2] H; split; auto. intro k; rewrite H2, H; auto. Qed.

Lemma cnt_nonneg : forall l k, 0 <= cnt l k.
Proof. intros; unfold cnt; lia. Qed.
Lemma cnt_cons : forall i l k, cnt (i :: l) k = cnt l k + ind (f_begin i =? k) + ind (f_end i =? k).
Proof.
  intros; unfold cnt; simpl. destruct (f_begin i =? k), (f_end i =? k); unfold ind; simpl; lia.
Qed.
Lemma filter_perm_length : forall {A} (f : A -> bool) l l', Permutation l l' ->
  List.length (filter f l) = List.length (filter f l').
Proof.
  induction 1; simpl; auto.
  - destruct (f x); simpl; auto.
  - destruct (f x), (f y); simpl; auto.
  - congruence.
Qed.
Lemma cnt_perm : forall l l' k, Permutation l l' -> cnt l k = cnt l' k.
Proof. intros; unfold cnt. rewrite !(filter_perm_length _ l l') by auto. reflexivity. Qed.
Lemma cnt_In : forall i l, In i l -> 0 < cnt l (f_begin i) /\ 0 < cnt l (f_end i).
Proof.
  induction l as [|a l IH]; simpl; [contradiction|]. rewrite !cnt_cons.
  pose proof (cnt_nonneg l (f_begin i)). pose proof (cnt_nonneg l (f_end i)).
  assert (0 <= ind (f_begin a =? f_begin i) /\ 0 <= ind (f_end a =? f_begin i) /\
          0 <= ind (f_begin a =? f_end i) /\ 0 <= ind (f_end a =? f_end i)) as [? [? [? ?]]]
    by (unfold ind; repeat match goal with |- context [if ?c then _ else _] => destruct c end; lia).
  intros [->|H']; [|apply IH in H'; lia].
  rewrite !Z.eqb_refl in *. simpl in *. unfold ind in *; lia.
Qed.
Lemma cnt_pos_In : forall l k, 0 < cnt l k -> exists i, In i l /\ (f_begin i = k \/ f_end i = k).
Proof.
  induction l as [|a l IH]; intros k H; [unfold cnt in H; simpl in H; lia|].
  rewrite cnt_cons in H. destruct (Z.eqb_spec (f_begin a) k); [exists a; simpl; auto|].
  destruct (Z.eqb_spec (f_end a) k); [exists a; simpl; auto|].
  unfold ind in H. destruct (IH k) as [i [H1 H2]]; [lia|]. exists i; simpl; auto.
Qed.

Lemma add_boundaries_ok : forall t l i, bcount t (cnt l) -> bcount (add_boundaries t i) (cnt (i :: l)).
Proof.
  intros t l i H. unfold add_boundaries. eapply bcount_ext.
  - apply bt_inc_ok; [apply bt_inc_ok; [exact H|apply cnt_nonneg]|].
    intro k; cbv beta. pose proof (cnt_nonneg l k). unfold ind. destruct (f_begin i =? k); lia.
  - intro k; cbv beta. rewrite cnt_cons. lia.
Qed.
Lemma remove_boundaries_ok : forall t l i, f_begin i <> f_end i -> bcount t (cnt (i :: l)) ->
  exists t', remove_boundaries t i = Ok t' /\ bcount t' (cnt l).
Proof.
  intros t l i Hi H. unfold remove_boundaries.
  destruct (cnt_In i (i :: l)) as [P1 P2]; [simpl; auto|].
  destruct (bt_dec_ok t (cnt (i :: l)) (f_begin i) H) as [t1 [E1 B1]]; auto using cnt_nonneg.
  rewrite E1; cbn [bind].
  assert (G : forall k, cnt (i :: l) k - ind (f_begin i =? k) = cnt l k + ind (f_end i =? k)).
  { intro k; rewrite cnt_cons; lia. }
  destruct (bt_dec_ok t1 _ (f_end i) B1) as [t2 [E2 B2]].
  - intro k; cbv beta; rewrite G. pose proof (cnt_nonneg l k). unfold ind; destruct (f_end i =? k); lia.
  - cbv beta; rewrite G. rewrite Z.eqb_refl. pose proof (cnt_nonneg l (f_end i)). unfold ind; lia.
  - exists t2; split; auto. eapply bcount_ext; [exact B2|]. intro k; cbv beta. rewrite G; lia.
Qed.

(** ** the invariant *)
Record inv (t : tree) : Prop := {
  i_nodup : NoDup (all_intervals t);
  i_ord : forall i, In i (all_intervals t) -> ordinary i;
  i_acc : acc (top_node t);
  i_calm : calm (top_node t);
  i_sorted : StronglySorted Z.le (keys (top_node t));
  i_incl : incl (all_intervals t) (nd_elems (top_node t));
  i_bounds : bcount (bounds t) (cnt (all_intervals t)) }.

Lemma inv_empty : inv t_empty.
Proof.
  split; simpl; auto using NoDup_nil, SSorted_nil; try contradiction.
  - intros i [].
  - intros i [].
  - split; simpl; auto using SSorted_nil.
Qed.

Lemma contains_In : forall t i, t_contains t i = true <-> In i (all_intervals t).
Proof. intros; apply set_mem_In. Qed.
Lemma contains_false : forall t i, t_contains t i = false <-> ~ In i (all_intervals t).
Proof. intros; rewrite <- contains_In; destruct (t_contains t i); split; congruence. Qed.

Lemma null_dec : forall i, f_is_null i = true <-> f_end i <= f_begin i.
Proof. intros; unfold f_is_null; apply Z.leb_le. Qed.

Lemma set_discard_perm : forall i l, NoDup l -> In i l -> Permutation l (i :: set_discard i l).
Proof.
  unfold set_discard; induction l as [|a l IH]; intros Hn H; [contradiction|].
  inversion Hn as [|? ? Hn1 Hn2]; subst. simpl. destruct (f_eqb a i) eqn:E.
  - apply f_eqb_eq in E; subst. simpl. constructor. clear -Hn1.
    induction l as [|b l IHl]; simpl; auto. destruct (f_eqb b i) eqn:E.
    + apply f_eqb_eq in E; subst. exfalso; apply Hn1; simpl; auto.
    + simpl. constructor. apply IHl. intro; apply Hn1; simpl; auto.
  - simpl. destruct H as [->|H]; [rewrite (proj2 (f_eqb_eq i i) eq_refl) in E; discriminate|].
    rewrite perm_swap. constructor. auto.
Qed.
Lemma set_discard_In : forall i l k, In k (set_discard i l) <-> In k l /\ k <> i.
Proof.
  intros; unfold set_discard. rewrite filter_In, negb_true_iff. split.
  - intros [H1 H2]; split; auto. intros ->. rewrite (proj2 (f_eqb_eq i i) eq_refl) in H2; discriminate.
  - intros [H1 H2]; split; auto. destruct (f_eqb k i) eqn:E; auto. apply f_eqb_eq in E; congruence.
Qed.

Lemma t_add_spec : forall t i, inv t -> null_or_ordinary i ->
  inv (snd (t_add t i)) /\
  fst (t_add t i) = (if f_end i <=? f_begin i then Err ValueError else Ok tt) /\
  (f_end i <= f_begin i -> snd (t_add t i) = t) /\
  (In i (all_intervals t) -> t_add t i = (Ok tt, t)) /\
  (ordinary i -> ~ In i (all_intervals t) ->
     all_intervals (snd (t_add t i)) = all_intervals t ++ [i] /\
     (if is_nil (top_node t) then top_node (snd (t_add t i)) = from_interval i
      else nd_add (top_node t) i = Ok (top_node (snd (t_add t i)))) /\
     inserted i (top_node t) (top_node (snd (t_add t i)))).
Proof.
  intros t i I Hi. unfold t_add.
  destruct (t_contains t i) eqn:Ec.
  - apply contains_In in Ec. assert (O := i_ord t I i Ec). assert (Hlt := proj1 O). simpl.
    destruct (Z.leb_spec (f_end i) (f_begin i)); [lia|].
    split; [auto|]. split; [auto|]. split; [auto|]. split; [auto|]. intros _ N; contradiction.
  - apply contains_false in Ec.
    destruct (f_is_null i) eqn:En.
    + apply null_dec in En. simpl. destruct (Z.leb_spec (f_end i) (f_begin i)); [|lia].
      split; [auto|]. split; auto. split; auto. split; [tauto|]. intros [? _]; lia.
    + destruct (Z.leb_spec (f_end i) (f_begin i)) as [Hle|Hlt].
      { apply null_dec in Hle; congruence. }
      assert (O : ordinary i) by (destruct Hi; [lia|auto]).
      assert (X : exists n, (if is_nil (top_node t) then Ok (from_interval i) else nd_add (top_node t) i) = Ok n
                /\ acc n /\ inserted i (top_node t) n).
      { destruct (top_node t) as [|x s l r d b] eqn:Et.
        - simpl is_nil. exists (from_interval i). split; auto. split; [simpl; auto|]. apply inserted_nil.
        - simpl is_nil. apply nd_add_ok; auto; [discriminate|..]; rewrite <- Et; apply I. }
      destruct X as [n [En' [An Hins]]]. rewrite En'. simpl.
      assert (Ead : set_add i (all_intervals t) = all_intervals t ++ [i]).
      { unfold set_add. destruct (set_mem i (all_intervals t)) eqn:E; auto. apply set_mem_In in E; tauto. }
      assert (P : Permutation (i :: all_intervals t) (all_intervals t ++ [i])).
      { apply Permutation_cons_append. }
      split; [|split; [auto|split; [lia|split; [tauto|]]]].
      * split; simpl; rewrite ?Ead.
        -- eapply Permutation_NoDup; [exact P|]. constructor; auto. apply I.
        -- intros k; rewrite in_app_iff. intros [H|[<-|[]]]; auto. apply I; auto.
        -- auto.
        -- eapply inserted_calm; eauto. apply I.
        -- eapply inserted_sorted; eauto. apply I.
        -- intros k Hk. apply in_app_iff in Hk. eapply Permutation_in.
           { symmetry. apply inserted_elems; eauto. }
           destruct Hk as [Hk|[<-|[]]]; simpl; auto. right. apply I; auto.
        -- eapply bcount_ext; [apply add_boundaries_ok; apply I|].
           intro k; apply cnt_perm; auto.
      * intros _ _. split; [auto|]. split; [|auto].
        destruct (is_nil (top_node t)); congruence.
Qed.

Lemma t_discard_spec : forall t i, inv t -> null_or_ordinary i ->
  inv (snd (t_discard t i)) /\ fst (t_discard t i) = Ok tt /\
  (forall k, In k (all_intervals (snd (t_discard t i))) <-> In k (all_intervals t) /\ k <> i) /\
  top_node (snd (t_discard t i)) = top_node t /\
  (~ In i (all_intervals t) -> snd (t_discard t i) = t).
Proof.
  intros t i I Hi. unfold t_discard. destruct (t_contains t i) eqn:Ec; simpl negb.
  2:{ apply contains_false in Ec. simpl. split; auto. split; auto. split; [|auto].
      intro k; split; [|tauto]. intros H; split; auto. intros ->; auto. }
  apply contains_In in Ec. assert (O := i_ord t I i Ec).
  assert (Hn : top_node t <> Nil).
  { intro E. apply (i_incl t I) in Ec. rewrite E in Ec; contradiction. }
  cbv iota zeta. rewrite nd_discard_ordinary by auto.
  assert (P := set_discard_perm i (all_intervals t) (i_nodup t I) Ec).
  destruct (remove_boundaries_ok (bounds t) (set_discard i (all_intervals t)) i) as [b' [E1 E2]].
  { destruct O; lia. }
  { eapply bcount_ext; [apply I|]. intro k; apply cnt_perm; auto. }
  rewrite E1. simpl. split; [|split; [auto|split; [|split; [auto|tauto]]]].
  - assert (ND : NoDup (i :: set_discard i (all_intervals t))).
    { eapply Permutation_NoDup; [exact P|apply I]. }
    inversion ND; subst.
    split; simpl; auto; try apply I.
    + intros k Hk; apply I. apply set_discard_In in Hk; tauto.
    + intros k Hk. apply I. apply set_discard_In in Hk; tauto.
  - apply set_discard_In.
Qed.

Lemma t_update_spec : forall l t, inv t -> Forall null_or_ordinary l ->
  inv (snd (t_update t l)) /\
  fst (t_update t l) = (if existsb (fun i => f_end i <=? f_begin i) l then Err ValueError else Ok tt) /\
  (forall k, In k (all_intervals (snd (t_update t l))) <-> In k (all_intervals t) \/ In k (before_null l)).
Proof.
  induction l as [|i l IH]; intros t I H; simpl.
  - split; [auto|]. split; [auto|]. intro k; tauto.
  - inversion H as [|? ? H1 H2]; subst.
    destruct (t_add_spec t i I H1) as [A1 [A2 [A3 [A4 A5]]]].
    destruct (t_add t i) as [o t'] eqn:E. simpl in *. subst o.
    destruct (Z.leb_spec (f_end i) (f_begin i)) as [Hle|Hlt]; simpl.
    + rewrite A3 by auto. split; auto. split; auto. intro k; tauto.
    + destruct (IH t' A1 H2) as [B1 [B2 B3]]. split; auto. split; auto.
      intro k. rewrite B3.
      assert (O : ordinary i) by (destruct H1; [lia|auto]).
      destruct (t_contains t i) eqn:Ec.
      * apply contains_In in Ec. specialize (A4 Ec). injection A4 as ->.
        simpl. split; [tauto|]. intros [?|[<-|?]]; auto.
      * apply contains_false in Ec. destruct (A5 O Ec) as [C1 _]. rewrite C1, in_app_iff. simpl. tauto.
Qed.

Lemma t_difference_spec : forall l t, inv t -> Forall null_or_ordinary l ->
  inv (snd (t_difference_update t l)) /\ fst (t_difference_update t l) = Ok tt /\
  (forall k, In k (all_intervals (snd (t_difference_update t l))) <-> In k (all_intervals t) /\ ~ In k l) /\
  top_node (snd (t_difference_update t l)) = top_node t.
Proof.
  induction l as [|i l IH]; intros t I H; simpl.
  - split; [auto|]. split; [auto|]. split; [|auto]. intro k; tauto.
  - inversion H as [|? ? H1 H2]; subst.
    destruct (t_discard_spec t i I H1) as [A1 [A2 [A3 [A4 A5]]]].
    destruct (t_discard t i) as [o t'] eqn:E. simpl in *. subst o.
    destruct (IH t' A1 H2) as [B1 [B2 [B3 B4]]]. split; auto. split; auto. split; [|congruence].
    intro k. rewrite B3, A3. split; [intros [[? ?] ?]; split; auto; intros [?|?]; subst; auto|].
    intros [? ?]; repeat split; auto.
Qed.

Lemma t_remove_spec : forall t i, inv t -> null_or_ordinary i -> t_remove t i = (Err ValueError, t).
Proof.
  intros t i I Hi. unfold t_remove. destruct (t_contains t i) eqn:Ec; simpl negb; cbv iota; auto.
  apply contains_In in Ec. assert (O := i_ord t I i Ec).
  assert (Hn : top_node t <> Nil).
  { intro E. apply (i_incl t I) in Ec. rewrite E in Ec; contradiction. }
  rewrite nd_remove_ordinary; auto.
Qed.

Lemma fold_bounds : forall l b m, bcount b (cnt m) -> bcount (fold_left add_boundaries l b) (cnt (rev l ++ m)).
Proof.
  induction l as [|i l IH]; intros b m H; simpl; auto.
  rewrite <- app_assoc. simpl. apply IH. apply add_boundaries_ok; auto.
Qed.

Lemma t_init_spec : forall ivs, (forall i, In i ivs -> ordinary i) ->
  exists t, t_init ivs = Ok t /\ inv t /\ (forall k, In k (all_intervals t) <-> In k ivs) /\
    Permutation (nd_elems (top_node t)) (all_intervals t).
Proof.
  intros ivs Ho. unfold t_init.
  destruct (set_update_nodup ivs [] (NoDup_nil _)) as [H1 [H2 H3]].
  set (s := set_update [] ivs) in *.
  assert (Hs : forall i, In i s -> ordinary i) by (intros i Hi; apply Ho; apply H2 in Hi; simpl in Hi; tauto).
  assert (En : existsb f_is_null s = false).
  { destruct (existsb f_is_null s) eqn:E; auto. apply existsb_exists in E as [i [E1 E2]].
    apply Hs in E1. rewrite (ordinary_not_null _ E1) in E2; discriminate. }
  rewrite En. destruct (from_intervals_ok s H1 Hs) as [n [N1 [N2 [N3 [N4 N5]]]]].
  rewrite N1. cbn [bind]. eexists; split; [reflexivity|]. split; [|split; simpl].
  - split; simpl; auto.
    + intros i Hi. apply Hs. eapply Permutation_in; eauto.
    + intros i Hi. eapply Permutation_in; [symmetry|]; eauto.
    + eapply bcount_ext.
      * apply (fold_bounds s [] []). split; simpl; auto using SSorted_nil.
      * intro k. apply cnt_perm. rewrite app_nil_r. symmetry; apply Permutation_rev.
  - intro k; rewrite H2; simpl; tauto.
  - auto.
Qed.

Lemma merge_scan_adjacent : forall f rest first, merge_scan f first rest = true <->
  exists a b, adjacent (first :: rest) a b /\ f a b = true.
Proof.
  intros f; induction rest as [|h rest IH]; intros first; simpl.
  - split; [discriminate|]. intros [a [b [[l1 [l2 H]] _]]].
    apply (f_equal (@List.length _)) in H. rewrite app_length in H; simpl in H; lia.
  - destruct (f first h) eqn:E.
    + split; auto. intros _. exists first, h; split; auto. exists [], rest; auto.
    + rewrite IH. split.
      * intros [a [b [[l1 [l2 H]] H']]]. exists a, b; split; auto. exists (first :: l1), l2. rewrite H; auto.
      * intros [a [b [[l1 [l2 H]] H']]]. exists a, b; split; auto.
        destruct l1 as [|c l1]; simpl in H.
        -- injection H as -> -> ->. congruence.
        -- injection H as -> H. exists l1, l2. auto.
Qed.

Lemma t_merge_spec : forall f t, inv t ->
  inv (snd (t_merge_with f t)) /\
  (forall k, In k (all_intervals (snd (t_merge_with f t))) <-> In k (all_intervals t)) /\
  ((exists a b, adjacent (py_sort f_ltb (all_intervals t)) a b /\ f a b = true) ->
     t_merge_with f t = (Err NameError, t)) /\
  (~ (exists a b, adjacent (py_sort f_ltb (all_intervals t)) a b /\ f a b = true) ->
     fst (t_merge_with f t) = Ok tt).
Proof.
  intros f t I. unfold t_merge_with.
  assert (P := py_sort_perm f_ltb (all_intervals t)).
  destruct (py_sort f_ltb (all_intervals t)) as [|first rest] eqn:Es.
  - simpl. split; auto. split; [tauto|]. split; auto.
    intros [a [b [[l1 [l2 H]] _]]]. destruct l1; discriminate.
  - destruct (merge_scan f first rest) eqn:Em.
    + simpl. split; auto. split; [tauto|]. split; auto.
      intro N. exfalso; apply N. apply merge_scan_adjacent; auto.
    + destruct (t_init_spec (first :: rest)) as [t' [T1 [T2 [T3 T4]]]].
      { intros i Hi. apply I. eapply Permutation_in; [symmetry; exact P|auto]. }
      rewrite T1. simpl. split; auto. split; [|split; auto].
      * intro k. rewrite T3. split; intro H; [eapply Permutation_in; [symmetry; exact P|exact H]|eapply Permutation_in; [exact P|exact H]].
      * intro N. apply merge_scan_adjacent in N. congruence.
Qed.

Lemma lists_ext : forall l S S', lists l S -> (forall k, S k <-> S' k) -> lists l S'.
Proof. intros l S S' [H1 H2] H; split; auto. intro k; rewrite H2; auto. Qed.

Lemma step_inv : forall t o S, inv t -> op_ok o -> lists (all_intervals t) S ->
  inv (snd (t_step t o)) /\ lists (all_intervals (snd (t_step t o))) (set_after S o).
Proof.
  intros t o S I Ho [L1 L2]. destruct o as [i|l|i|l|i| | s| |d s]; cbn [t_step op_ok set_after] in *.
  - destruct (t_add_spec t i I Ho) as [A1 [A2 [A3 [A4 A5]]]]. split; auto. split; [apply A1|].
    intro k. destruct (t_contains t i) eqn:Ec.
    + apply contains_In in Ec. assert (O := i_ord t I i Ec). rewrite A4 by auto. simpl.
      rewrite L2. split; auto. intros [?|[-> ?]]; auto. apply L2; auto.
    + apply contains_false in Ec. destruct Ho as [Hn|O].
      * rewrite A3, L2 by auto. split; auto. intros [?|[? ?]]; auto; lia.
      * destruct (A5 O Ec) as [-> _]. rewrite in_app_iff, L2. simpl. destruct O; intuition.
  - destruct (t_update_spec l t I Ho) as [A1 [A2 A3]]. split; auto. split; [apply A1|].
    intro k. rewrite A3, L2; tauto.
  - destruct (t_discard_spec t i I Ho) as [A1 [A2 [A3 [A4 A5]]]]. split; auto. split; [apply A1|].
    intro k; rewrite A3, L2; tauto.
  - destruct (t_difference_spec l t I Ho) as [A1 [A2 [A3 A4]]]. split; auto. split; [apply A1|].
    intro k; rewrite A3, L2; tauto.
  - rewrite t_remove_spec by auto. simpl. split; auto. split; auto.
  - simpl. split; [apply inv_empty|]. split; simpl; [constructor|tauto].
  - destruct (t_merge_spec (fun lower higher =>
    (f_begin higher <? f_end lower) || (negb s && (f_begin higher =? f_end lower))) t I) as [A1 [A2 _]].
    split; auto. split; [apply A1|]. intro k. rewrite <- L2. apply A2.
  - destruct (t_merge_spec (fun lower higher => f_range_matches higher lower) t I) as [A1 [A2 _]].
    split; auto. split; [apply A1|]. intro k. rewrite <- L2. apply A2.
  - match goal with |- context [t_merge_neighbors d s t] => unfold t_merge_neighbors end.
    match goal with |- context [t_merge_with ?f t] => destruct (t_merge_spec f t I) as [A1 [A2 _]] end.
    split; auto. split; [apply A1|]. intro k. rewrite <- L2. apply A2.
Qed.

Lemma run_inv : forall ops t S, inv t -> Forall op_ok ops -> lists (all_intervals t) S ->
  inv (t_run t ops) /\ lists (all_intervals (t_run t ops)) (fold_left set_after ops S).
Proof.
  induction ops as [|o ops IH]; intros t S I H L; simpl; auto.
  inversion H; subst. destruct (step_inv t o S I) as [A1 A2]; auto.
Qed.
Lemma run_empty : forall ops, Forall op_ok ops ->
  inv (t_run t_empty ops) /\ lists (all_intervals (t_run t_empty ops)) (set_after_all ops).
Proof.
  intros. apply run_inv; auto using inv_empty. split; simpl; [constructor|tauto].
Qed.
