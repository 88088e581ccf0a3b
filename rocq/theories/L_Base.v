(** Lemmas about the common vocabulary (bisect, sorting, list helpers). *)
From Coq Require Import Lia Permutation Sorted Lqa.
From Verif Require Import PyBase.
Open Scope nat_scope.

Section Bisect.
Context {A : Type} (lt : A -> A -> bool).

Lemma bisect_left_loop_spec (l : list A) (x : A) (n : nat) :
  n <= List.length l ->
  (forall i y, i < n -> nth_error l i = Some y -> lt y x = true) ->
  (forall i y, n <= i -> nth_error l i = Some y -> lt y x = false) ->
  forall fuel lo hi, lo <= n -> n <= hi -> hi <= List.length l -> hi - lo < fuel ->
  bisect_left_loop lt l x fuel lo hi = n.
Proof.
  intros Hn Hlt Hge fuel.
  induction fuel as [|f IH]; intros lo hi Hlo Hhi Hlen Hf; [lia|].
  cbn [bisect_left_loop].
  destruct (Nat.ltb_spec lo hi) as [Hlh|Hlh]; [|lia].
  pose proof (Nat.div_mod (lo + hi) 2 ltac:(lia)) as Hdm.
  pose proof (Nat.mod_upper_bound (lo + hi) 2 ltac:(lia)) as Hmu.
  set (mid := Nat.div (lo + hi) 2) in *.
  destruct (nth_error l mid) as [y|] eqn:Hy.
  - destruct (lt y x) eqn:Hyx.
    + apply IH; try lia.
      destruct (Nat.le_gt_cases n mid) as [Hc|Hc]; [|lia].
      rewrite (Hge mid y Hc Hy) in Hyx. discriminate.
    + apply IH; try lia.
      destruct (Nat.le_gt_cases n mid) as [Hc|Hc]; [lia|].
      rewrite (Hlt mid y Hc Hy) in Hyx. discriminate.
  - apply nth_error_None in Hy. lia.
Qed.

Lemma bisect_left_spec (l : list A) (x : A) (n : nat) :
  n <= List.length l ->
  (forall i y, i < n -> nth_error l i = Some y -> lt y x = true) ->
  (forall i y, n <= i -> nth_error l i = Some y -> lt y x = false) ->
  bisect_left lt l x = n.
Proof.
  intros H1 H2 H3. unfold bisect_left.
  apply bisect_left_loop_spec with (n := n); auto; lia.
Qed.

Lemma bisect_right_loop_spec (l : list A) (x : A) (n : nat) :
  n <= List.length l ->
  (forall i y, i < n -> nth_error l i = Some y -> lt x y = false) ->
  (forall i y, n <= i -> nth_error l i = Some y -> lt x y = true) ->
  forall fuel lo hi, lo <= n -> n <= hi -> hi <= List.length l -> hi - lo < fuel ->
  bisect_right_loop lt l x fuel lo hi = n.
Proof.
  intros Hn Hlt Hge fuel.
  induction fuel as [|f IH]; intros lo hi Hlo Hhi Hlen Hf; [lia|].
  cbn [bisect_right_loop].
  destruct (Nat.ltb_spec lo hi) as [Hlh|Hlh]; [|lia].
  pose proof (Nat.div_mod (lo + hi) 2 ltac:(lia)) as Hdm.
  pose proof (Nat.mod_upper_bound (lo + hi) 2 ltac:(lia)) as Hmu.
  set (mid := Nat.div (lo + hi) 2) in *.
  destruct (nth_error l mid) as [y|] eqn:Hy.
  - destruct (lt x y) eqn:Hyx.
    + apply IH; try lia.
      destruct (Nat.le_gt_cases n mid) as [Hc|Hc]; [lia|].
      rewrite (Hlt mid y Hc Hy) in Hyx. discriminate.
    + apply IH; try lia.
      destruct (Nat.le_gt_cases n mid) as [Hc|Hc]; [|lia].
      rewrite (Hge mid y Hc Hy) in Hyx. discriminate.
  - apply nth_error_None in Hy. lia.
Qed.

Lemma bisect_right_spec (l : list A) (x : A) (n : nat) :
  n <= List.length l ->
  (forall i y, i < n -> nth_error l i = Some y -> lt x y = false) ->
  (forall i y, n <= i -> nth_error l i = Some y -> lt x y = true) ->
  bisect_right lt l x = n.
Proof.
  intros H1 H2 H3. unfold bisect_right.
  apply bisect_right_loop_spec with (n := n); auto; lia.
Qed.

Lemma bisect_left_loop_bound (l : list A) (x : A) :
  forall fuel lo hi, lo <= hi -> hi <= List.length l ->
  bisect_left_loop lt l x fuel lo hi <= List.length l.
Proof.
  induction fuel as [|f IH]; intros lo hi Hlo Hhi; cbn [bisect_left_loop]; [lia|].
  destruct (Nat.ltb_spec lo hi) as [Hlh|Hlh]; [|lia].
  pose proof (Nat.div_mod (lo + hi) 2 ltac:(lia)) as Hdm.
  pose proof (Nat.mod_upper_bound (lo + hi) 2 ltac:(lia)) as Hmu.
  set (mid := Nat.div (lo + hi) 2) in *.
  destruct (nth_error l mid); [|lia].
  destruct (lt a x); apply IH; lia.
Qed.
Lemma bisect_left_bound (l : list A) (x : A) : bisect_left lt l x <= List.length l.
Proof. unfold bisect_left. apply bisect_left_loop_bound; lia. Qed.
End Bisect.

Lemma list_insert_perm {A} (l : list A) i x : Permutation (x :: l) (list_insert l i x).
Proof.
  unfold list_insert. rewrite <- (firstn_skipn i l) at 1.
  apply Permutation_middle.
Qed.

Lemma list_insert_length {A} (l : list A) i x :
  List.length (list_insert l i x) = S (List.length l).
Proof. symmetry. rewrite <- (Permutation_length (list_insert_perm l i x)). reflexivity. Qed.

Lemma insort_left_perm {A} (lt : A -> A -> bool) l x : Permutation (x :: l) (insort_left lt l x).
Proof. apply list_insert_perm. Qed.

Lemma list_insert_app {A} (l1 l2 : list A) x :
  list_insert (l1 ++ l2) (List.length l1) x = l1 ++ x :: l2.
Proof.
  unfold list_insert. rewrite firstn_app, Nat.sub_diag, firstn_all, firstn_O, app_nil_r.
  rewrite skipn_app, Nat.sub_diag, skipn_all. reflexivity.
Qed.

(** Splitting a strongly sorted list at a value. *)
Lemma bisect_left_app {A} (lt : A -> A -> bool) (l1 l2 : list A) x :
  Forall (fun y => lt y x = true) l1 -> Forall (fun y => lt y x = false) l2 ->
  bisect_left lt (l1 ++ l2) x = List.length l1.
Proof.
  intros H1 H2. apply bisect_left_spec.
  - rewrite app_length. lia.
  - intros i y Hi Hn. rewrite nth_error_app1 in Hn by lia.
    rewrite Forall_forall in H1. apply H1. eapply nth_error_In; eauto.
  - intros i y Hi Hn. rewrite nth_error_app2 in Hn by lia.
    rewrite Forall_forall in H2. apply H2. eapply nth_error_In; eauto.
Qed.

Lemma bisect_right_app {A} (lt : A -> A -> bool) (l1 l2 : list A) x :
  Forall (fun y => lt x y = false) l1 -> Forall (fun y => lt x y = true) l2 ->
  bisect_right lt (l1 ++ l2) x = List.length l1.
Proof.
  intros H1 H2. apply bisect_right_spec.
  - rewrite app_length. lia.
  - intros i y Hi Hn. rewrite nth_error_app1 in Hn by lia.
    rewrite Forall_forall in H1. apply H1. eapply nth_error_In; eauto.
  - intros i y Hi Hn. rewrite nth_error_app2 in Hn by lia.
    rewrite Forall_forall in H2. apply H2. eapply nth_error_In; eauto.
Qed.

(** Sorting *)
Lemma insert_stable_perm {A} (lt : A -> A -> bool) x l :
  Permutation (x :: l) (insert_stable lt x l).
Proof.
  induction l as [|y r IH]; cbn; [reflexivity|].
  destruct (lt y x); [|reflexivity].
  rewrite perm_swap. constructor. exact IH.
Qed.
Lemma py_sort_perm {A} (lt : A -> A -> bool) l : Permutation l (py_sort lt l).
Proof.
  induction l as [|x l IH]; cbn; [constructor|].
  rewrite <- insert_stable_perm. constructor. exact IH.
Qed.

Lemma insert_stable_sorted {A} (lt : A -> A -> bool) x l :
  (forall a b, lt a b = true -> lt b a = false) ->
  (forall a b c, lt b a = false -> lt c b = false -> lt c a = false) ->
  StronglySorted (fun a b => lt b a = false) l ->
  StronglySorted (fun a b => lt b a = false) (insert_stable lt x l).
Proof.
  intros Hasym Htr. induction l as [|y r IH]; intros Hs; cbn.
  - repeat constructor.
  - inversion Hs as [|? ? Hsr Hall]; subst.
    destruct (lt y x) eqn:E.
    + constructor; [auto|].
      apply Forall_forall. intros z Hz.
      apply (Permutation_in z (Permutation_sym (insert_stable_perm lt x r))) in Hz.
      destruct Hz as [->|Hz]; [auto|]. rewrite Forall_forall in Hall; auto.
    + constructor; [exact Hs|]. constructor; [exact E|].
      rewrite Forall_forall in *. intros z Hz. eapply Htr; [exact E|]. auto.
Qed.
Lemma py_sort_sorted {A} (lt : A -> A -> bool) l :
  (forall a b, lt a b = true -> lt b a = false) ->
  (forall a b c, lt b a = false -> lt c b = false -> lt c a = false) ->
  StronglySorted (fun a b => lt b a = false) (py_sort lt l).
Proof.
  intros Ha Ht. induction l as [|x l IH]; cbn; [constructor|].
  apply insert_stable_sorted; auto.
Qed.

Lemma list_remove_perm {A} (eqb : A -> A -> bool) x l l' :
  (forall a b, eqb a b = true -> a = b) ->
  list_remove eqb x l = Ok l' -> Permutation l (x :: l').
Proof.
  intros He. revert l'. induction l as [|y r IH]; cbn; intros l' H; [discriminate|].
  destruct (eqb y x) eqn:E.
  - injection H as <-. rewrite (He _ _ E). reflexivity.
  - destruct (list_remove eqb x r) as [r'|]; [|discriminate]. injection H as <-.
    rewrite (IH r' eq_refl). apply perm_swap.
Qed.

(** Rationals *)
Lemma Qltb_lt a b : Qltb a b = true <-> (a < b)%Q.
Proof.
  unfold Qltb. rewrite Bool.negb_true_iff.
  destruct (Qle_bool b a) eqn:E.
  - apply Qle_bool_iff in E. split; [discriminate|]. intro H. lra.
  - split; [intros _|reflexivity].
    apply Qnot_le_lt. intro H. apply Qle_bool_iff in H. congruence.
Qed.
Lemma Qltb_ge a b : Qltb a b = false <-> (b <= a)%Q.
Proof.
  unfold Qltb. rewrite Bool.negb_false_iff. apply Qle_bool_iff.
Qed.
Lemma Qle_bool_false a b : Qle_bool a b = false <-> (b < a)%Q.
Proof.
  split; intro H.
  - apply Qnot_le_lt. intro H'. apply Qle_bool_iff in H'. congruence.
  - destruct (Qle_bool a b) eqn:E; [|reflexivity]. apply Qle_bool_iff in E. lra.
Qed.
Lemma Qmaxb_spec a b : ((a <= b)%Q /\ Qmaxb a b = b) \/ ((b < a)%Q /\ Qmaxb a b = a).
Proof.
  unfold Qmaxb. destruct (Qle_bool a b) eqn:E.
  - left. apply Qle_bool_iff in E. auto.
  - right. apply Qle_bool_false in E. auto.
Qed.
Lemma Qminb_spec a b : ((a <= b)%Q /\ Qminb a b = a) \/ ((b < a)%Q /\ Qminb a b = b).
Proof.
  unfold Qminb. destruct (Qle_bool a b) eqn:E.
  - left. apply Qle_bool_iff in E. auto.
  - right. apply Qle_bool_false in E. auto.
Qed.
Lemma Qabsb_spec a : ((0 <= a)%Q /\ Qabsb a = a) \/ ((a < 0)%Q /\ Qabsb a = Qopp a).
Proof.
  unfold Qabsb. destruct (Qle_bool 0 a) eqn:E.
  - left. apply Qle_bool_iff in E. auto.
  - right. apply Qle_bool_false in E. auto.
Qed.
