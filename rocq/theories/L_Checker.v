(** Lemmas for the scripts that check datasets. *)
From Coq Require Import Sorted Permutation Lia.
From Verif Require Import PyBase L_Base L_Note M_Checker S_Checker.
Open Scope Z_scope.

Lemma list_eqb_eq : forall a b, list_eqb a b = true <-> a = b.
Proof.
  induction a as [|x a IH]; intros [|y b]; cbn; split; intros H; try discriminate; auto.
  - apply andb_true_iff in H as [H1 H2]. apply Z.eqb_eq in H1. apply IH in H2. congruence.
  - injection H as -> ->. rewrite Z.eqb_refl. cbn. apply IH. reflexivity.
Qed.
Lemma sorted_perm_eq : forall a b : list Z, StronglySorted Z.le a -> StronglySorted Z.le b -> Permutation a b -> a = b.
Proof.
  induction a as [|x a IH]; intros b SA SB P; [apply Permutation_nil in P; congruence|].
  destruct b as [|y b]; [symmetry in P; apply Permutation_nil in P; discriminate|].
  inversion SA as [|? ? SA1 FA]; inversion SB as [|? ? SB1 FB]; subst. rewrite Forall_forall in FA, FB.
  assert (E : x = y).
  { assert (X : In x (y :: b)) by (eapply Permutation_in; [exact P|left; auto]). assert (Y : In y (x :: a)) by (eapply Permutation_in; [symmetry; exact P|left; auto]).
    destruct X as [X|X]; [congruence|]. destruct Y as [Y|Y]; [congruence|]. specialize (FA y Y). specialize (FB x X). lia. }
  subst y. f_equal. apply IH; auto. eapply Permutation_cons_inv; eauto.
Qed.
Lemma zsort_sorted : forall l, StronglySorted Z.le (py_sort Z.ltb l).
Proof.
  intros l. assert (H : StronglySorted (fun a b => (b <? a) = false) (py_sort Z.ltb l)).
  { apply py_sort_sorted; intros a b; [rewrite Z.ltb_lt, Z.ltb_ge; lia|]. intros c. rewrite !Z.ltb_ge. lia. }
  revert H. generalize (py_sort Z.ltb l). induction l0 as [|x r IH]; intros H; inversion H as [|? ? H1 H2]; subst; constructor; auto.
  revert H2. apply Forall_impl. intros a. rewrite Z.ltb_ge. auto.
Qed.
Lemma zsort_eq : forall a b, py_sort Z.ltb a = py_sort Z.ltb b <-> Permutation a b.
Proof.
  intros a b. split; intros H.
  - transitivity (py_sort Z.ltb a); [apply py_sort_perm|]. rewrite H. symmetry. apply py_sort_perm.
  - apply sorted_perm_eq; try apply zsort_sorted. transitivity a; [symmetry; apply py_sort_perm|]. transitivity b; [exact H|apply py_sort_perm].
Qed.
Lemma firstn_repeat : forall (z n : nat) (x : Z), firstn n (repeat x z) = repeat x (Nat.min n z).
Proof. induction z as [|z IH]; intros [|n] x; cbn; auto. f_equal. apply IH. Qed.
(** A row that shows the notes passes the reverse check if there are enough zeros. *)
Lemma reverse_spec : forall zeros size notes chunk r, Permutation chunk notes -> (List.length chunk <= size)%nat -> List.length r = size -> (forall i, nth i r 0 = nth i chunk 0) ->
  (reverse_ok zeros size notes r = true <-> (size - List.length notes <= zeros)%nat).
Proof.
  intros zeros size notes chunk r P LE LR N. pose proof (Permutation_length P) as PL. unfold reverse_ok. rewrite list_eqb_eq, zsort_eq.
  assert (R : r = chunk ++ repeat 0 (size - List.length chunk)).
  { apply nth_ext with (d := 0) (d' := 0); [rewrite app_length, repeat_length; lia|]. intros i I. rewrite N. destruct (Nat.lt_ge_cases i (List.length chunk)) as [L|G].
    - rewrite app_nth1 by exact L. reflexivity.
    - rewrite app_nth2 by exact G. rewrite nth_overflow by exact G. symmetry. apply nth_repeat. }
  rewrite firstn_app, firstn_all2 by lia. rewrite firstn_repeat. split; intros H.
  - apply Permutation_length in H. rewrite LR, app_length, repeat_length in H. lia.
  - rewrite R, Nat.min_l by lia. rewrite PL. apply Permutation_app_tail. exact P.
Qed.

(** Masks. *)
Lemma check_iff : forall b, check b = Ok tt <-> b = true.
Proof. intros []; cbn; split; intros; auto; discriminate. Qed.
Lemma bind_check : forall b (f : unit -> res unit), bind (check b) f = Ok tt <-> b = true /\ f tt = Ok tt.
Proof. intros [] f; cbn; split; intros H; auto; [apply H|discriminate|destruct H; discriminate]. Qed.
Lemma count_cons : forall b m, count (b :: m) = (if b then 1 else 0) + count m.
Proof. intros [] m; unfold count; cbn [filter List.length]; lia. Qed.
Lemma count_le : forall m, 0 <= count m <= Z.of_nat (List.length m).
Proof. induction m as [|b m IH]; [cbn; lia|]. rewrite count_cons. cbn [List.length]. destruct b; lia. Qed.
Fixpoint tri (a b c : list bool) : list (bool * bool * bool) :=
  match a, b, c with x :: a', y :: b', z :: c' => (x, y, z) :: tri a' b' c' | _, _, _ => [] end.
Definition one (t : bool * bool * bool) : Prop := t = (true, false, false) \/ t = (false, true, false) \/ t = (false, false, true).
Lemma counts_one : forall n a b c, List.length a = n -> List.length b = n -> List.length c = n ->
  (Z.of_nat n = count a + count b + count c /\ count (mask_or (mask_or a b) c) = Z.of_nat n <-> Forall one (tri a b c)).
Proof.
  induction n as [|n IH]; intros [|x a] [|y b] [|z c] LA LB LC; try discriminate.
  - cbn. split; [constructor|split; reflexivity].
  - cbn [List.length] in *. specialize (IH a b c ltac:(lia) ltac:(lia) ltac:(lia)). cbn [tri]. unfold mask_or in *. cbn [combine map fst snd]. rewrite !count_cons.
    fold (mask_or a b). fold (mask_or a b) in IH.
    assert (LO : List.length (mask_or a b) = n) by (unfold mask_or; rewrite map_length, combine_length; lia).
    assert (LT : List.length (map (fun p => fst p || snd p) (combine (mask_or a b) c)) = n) by (rewrite map_length, combine_length; lia).
    pose proof (count_le (map (fun p => fst p || snd p) (combine (mask_or a b) c))) as CL. rewrite LT in CL.
    assert (SUB : forall n a b c, List.length a = n -> List.length b = n -> List.length c = n -> count (map (fun p => fst p || snd p) (combine (mask_or a b) c)) <= count a + count b + count c).
    { clear. induction n as [|n IH]; intros [|x a] [|y b] [|z c] LA LB LC; try discriminate.  cbn [List.length] in *. specialize (IH a b c ltac:(lia) ltac:(lia) ltac:(lia)).
      unfold mask_or in *. cbn [combine map fst snd]. rewrite !count_cons. destruct x, y, z; cbn [orb]; lia. }
    specialize (SUB n a b c ltac:(lia) ltac:(lia) ltac:(lia)).
    split.
    + intros [H1 H2]. assert (C : one (x, y, z) /\ Z.of_nat n = count a + count b + count c /\ count (map (fun p => fst p || snd p) (combine (mask_or a b) c)) = Z.of_nat n).
      { unfold one. destruct x, y, z; cbn [orb] in *; (split; [auto|]); try lia; exfalso; lia. }
      constructor; [apply C|apply IH; apply C].
    + intros H. inversion H as [|? ? O1 O2]; subst. apply IH in O2 as [H1 H2]. destruct O1 as [E|[E|E]]; injection E as -> -> ->; cbn [orb]; lia.
Qed.
Lemma tri_nth : forall n a b c, List.length a = n -> List.length b = n -> List.length c = n ->
  (Forall one (tri a b c) <-> forall i, (i < n)%nat -> one (nth i a false, nth i b false, nth i c false)).
Proof.
  induction n as [|n IH]; intros [|x a] [|y b] [|z c] LA LB LC; try discriminate.
  - cbn. split; [intros; lia|constructor].
  - cbn [tri List.length] in *. specialize (IH a b c ltac:(lia) ltac:(lia) ltac:(lia)). split.
    + intros H [|i] I; inversion H; subst; cbn; [auto|]. apply IH; auto; lia.
    + intros H. constructor; [apply (H 0%nat); lia|]. apply IH. intros i I. apply (H (Datatypes.S i)). lia.
Qed.
Lemma one_nth : forall x y z, one (x, y, z) <-> (x = true /\ y = false /\ z = false) \/ (x = false /\ y = true /\ z = false) \/ (x = false /\ y = false /\ z = true).
Proof. intros x y z. unfold one. split; intros [H|[H|H]]; try (injection H as -> -> ->; auto 6); destruct H as (-> & -> & ->); auto. Qed.
Lemma and_zero : forall n a b, List.length a = n -> List.length b = n -> (forall i, (i < n)%nat -> nth i a false = true -> nth i b false = true -> False) -> count (mask_and a b) = 0.
Proof.
  induction n as [|n IH]; intros [|x a] [|y b] LA LB H; try discriminate. { reflexivity. } cbn [List.length] in *. unfold mask_and. cbn [combine map fst snd]. rewrite count_cons.
  fold (mask_and a b). rewrite IH; [|lia|lia|intros i I; apply (H (Datatypes.S i)); lia]. specialize (H 0%nat ltac:(lia)). cbn in H. destruct x, y; cbn; auto. exfalso. auto.
Qed.
Lemma masked_eq : forall n (y l : list Z) m, List.length y = n -> List.length l = n -> List.length m = n ->
  (masked y m = masked l m <-> forall i, (i < n)%nat -> nth i m false = true -> nth i y 0 = nth i l 0).
Proof.
  induction n as [|n IH]; intros [|a y] [|b l] [|x m] LA LB LC; try discriminate. { cbn. split; [intros; lia|auto]. } cbn [List.length] in *. specialize (IH y l m ltac:(lia) ltac:(lia) ltac:(lia)).
  unfold masked in *. cbn [combine filter snd]. destruct x; cbn [map fst].
  - split.
    + intros H [|i] I NI; cbn in *; [congruence|]. apply IH; [congruence|lia|exact NI].
    + intros H. f_equal; [apply (H 0%nat); [lia|reflexivity]|]. apply IH. intros i I. apply (H (Datatypes.S i)). lia.
  - rewrite IH. split; intros H.
    + intros [|i] I NI; cbn in *; [discriminate|]. apply H; [lia|exact NI].
    + intros i I. apply (H (Datatypes.S i)). lia.
Qed.
Lemma positions_from : forall m s i, In i (map fst (filter snd (combine (List.seq s (List.length m)) m))) <-> (s <= i)%nat /\ nth (i - s) m false = true.
Proof.
  induction m as [|x m IH]; intros s i; cbn [List.length List.seq combine filter map snd].
  - split; [intros []|]. intros [_ H]. destruct (i - s)%nat; discriminate.
  - assert (E : (s <= i)%nat /\ nth (i - s) (x :: m) false = true <-> (i = s /\ x = true) \/ ((Datatypes.S s <= i)%nat /\ nth (i - Datatypes.S s) m false = true)).
    { split.
      - intros [L H]. destruct (Nat.eq_dec i s) as [->|NE]; [left; rewrite Nat.sub_diag in H; auto|]. right. split; [lia|]. replace (i - s)%nat with (Datatypes.S (i - Datatypes.S s)) in H by lia. exact H.
      - intros [[-> ->]|[L H]]; [rewrite Nat.sub_diag; auto|]. split; [lia|]. replace (i - s)%nat with (Datatypes.S (i - Datatypes.S s)) by lia. exact H. }
    rewrite E. destruct x; cbn [map fst In]; rewrite IH; intuition congruence.
Qed.
Lemma positions_in : forall m i, In i (positions m) <-> nth i m false = true.
Proof. intros m i. unfold positions. rewrite positions_from, Nat.sub_0_r. intuition lia. Qed.
Lemma columns_ok : forall edges ps l, columns edges ps = Ok l -> (forall e, In e l <-> exists i, In i ps /\ nth_error edges i = Some e).
Proof.
  induction ps as [|i ps IH]; intros l H; cbn in H; [apply Ok_inj in H; subst; intros e; split; [intros []|intros [i [[] _]]]|].
  destruct (nth_error edges i) as [x|] eqn:E; [|discriminate]. destruct (columns edges ps) as [r|]; [|discriminate]. cbn in H. apply Ok_inj in H. subst. specialize (IH r eq_refl).
  intros e. cbn. rewrite IH. split.
  - intros [<-|[j [J1 J2]]]; eauto.
  - intros [j [[<-|J1] J2]]; [left; congruence|right; eauto].
Qed.
Lemma columns_total : forall edges ps, (forall i, In i ps -> (i < List.length edges)%nat) -> exists l, columns edges ps = Ok l.
Proof.
  induction ps as [|i ps IH]; intros H; cbn; [eauto|]. destruct (nth_error edges i) as [x|] eqn:E; [|apply nth_error_None in E; specialize (H i ltac:(left; auto)); lia].
  destruct IH as [l ->]; [intros; apply H; right; auto|]. cbn. eauto.
Qed.
Lemma masking_iff : forall k, per_node k -> one_mask k -> (check_masking k = Ok tt <-> k_y k = k_label k).
Proof.
  intros k (N0 & FM & LY & LL) O. set (n := Z.to_nat (k_nodes k)) in *. inversion FM as [|? ? L1 F1]; inversion F1 as [|? ? L2 F2]; inversion F2 as [|? ? L3 F3]; subst.
  unfold check_masking. rewrite !bind_check, check_iff, !list_eqb_eq. rewrite !(masked_eq n) by (unfold n; lia). split.
  - intros (H1 & H2 & H3). apply nth_ext with (d := 0) (d' := 0); [lia|]. intros i I. assert (I' : (i < n)%nat) by (unfold n; lia).
    destruct (O i I') as [(A & _)|[(_ & A & _)|(_ & _ & A)]]; auto.
  - intros ->. auto.
Qed.
Lemma edges_iff : forall k, per_node k -> one_mask k -> k_nodes k = count (k_train k) + count (k_val k) + count (k_test k) ->
  (check_edge_index k = Ok tt <-> Z.of_nat (List.length (k_edges k)) = k_nodes k /\ in_range k).
Proof.
  intros k (N0 & FM & _ & _) O SUM. set (n := Z.to_nat (k_nodes k)) in *. inversion FM as [|? ? L1 F1]; inversion F1 as [|? ? L2 F2]; inversion F2 as [|? ? L3 F3]; subst.
  assert (TOP : forall l, forallb (fun e : Z * Z => fst e <=? k_nodes k - 1) l && forallb (fun e : Z * Z => snd e <=? k_nodes k - 1) l = true <-> forall e, In e l -> fst e < k_nodes k /\ snd e < k_nodes k).
  { intros l. rewrite andb_true_iff, !forallb_forall. split; [intros [A B] e E; specialize (A e E); specialize (B e E)|intros A; split; intros e E; specialize (A e E)]; rewrite ?Z.leb_le in *; lia. }
  assert (LOW : forall l, forallb (fun e : Z * Z => (0 <=? fst e) && (0 <=? snd e)) l = true <-> forall e, In e l -> 0 <= fst e /\ 0 <= snd e).
  { intros l. rewrite forallb_forall. split; intros A e E; specialize (A e E); rewrite ?andb_true_iff, ?Z.leb_le in *; lia. }
  assert (NN : forall m i, Z.of_nat (List.length m) = k_nodes k -> In i (positions m) -> (i < n)%nat).
  { intros m i L I. apply positions_in in I. destruct (Nat.lt_ge_cases i (List.length m)) as [X|X]; [unfold n; lia|]. rewrite nth_overflow in I by exact X. discriminate. }
  unfold check_edge_index. split.
  - intros H. destruct (columns (k_edges k) (positions (k_train k))) as [tr|] eqn:C1; [|discriminate]. destruct (columns (k_edges k) (positions (k_val k))) as [va|] eqn:C2; [|discriminate].
    destruct (columns (k_edges k) (positions (k_test k))) as [te|] eqn:C3; [|discriminate]. cbn [bind] in H. cbv zeta in H. rewrite !bind_check, check_iff in H.
    destruct H as (_ & _ & _ & T1 & T2 & T3 & W1 & W2 & W3 & E). apply Z.eqb_eq in E. rewrite <- SUM in E. split; [exact E|].
    apply Forall_forall. intros e IE. apply In_nth_error in IE as [i NE]. assert (I : (i < n)%nat) by (assert (i < List.length (k_edges k))%nat by (apply nth_error_Some; congruence); unfold n; lia).
    assert (ALL : forall m l, columns (k_edges k) (positions m) = Ok l -> nth i m false = true -> In e l) by (intros m l C M; apply (columns_ok _ _ _ C); exists i; split; [apply positions_in; exact M|exact NE]).
    assert (X : (fst e < k_nodes k /\ snd e < k_nodes k) /\ 0 <= fst e /\ 0 <= snd e).
    { destruct (O i I) as [(A & _)|[(_ & A & _)|(_ & _ & A)]].
      - split; [apply (proj1 (TOP tr) T1)|apply (proj1 (LOW tr) W1)]; exact (ALL _ _ C1 A).
      - split; [apply (proj1 (TOP va) T2)|apply (proj1 (LOW va) W2)]; exact (ALL _ _ C2 A).
      - split; [apply (proj1 (TOP te) T3)|apply (proj1 (LOW te) W3)]; exact (ALL _ _ C3 A). }
    lia.
  - intros [E R]. unfold in_range in R. rewrite Forall_forall in R.
    assert (C : forall m, Z.of_nat (List.length m) = k_nodes k -> exists l, columns (k_edges k) (positions m) = Ok l /\ incl l (k_edges k)).
    { intros m L. destruct (columns_total (k_edges k) (positions m)) as [l CL]; [intros i I; pose proof (NN m i L I); unfold n in *; lia|]. exists l. split; [exact CL|].
      intros e IE. apply (columns_ok _ _ _ CL) in IE as [i [_ NE]]. eapply nth_error_In; eauto. }
    destruct (C _ L1) as [tr [C1 I1]]. destruct (C _ L2) as [va [C2 I2]]. destruct (C _ L3) as [te [C3 I3]]. rewrite C1, C2, C3. cbn [bind]. cbv zeta. rewrite !bind_check, check_iff.
    assert (TR : forall l, incl l (k_edges k) -> forall e, In e l -> fst e < k_nodes k /\ snd e < k_nodes k) by (intros l IL e IE; specialize (R e (IL e IE)); lia).
    assert (LR : forall l, incl l (k_edges k) -> forall e, In e l -> 0 <= fst e /\ 0 <= snd e) by (intros l IL e IE; specialize (R e (IL e IE)); lia).
    rewrite !TOP, !LOW, !Z.eqb_eq.
    split; [apply (and_zero n); [unfold n; lia|unfold n; lia|]; intros i I A B; destruct (O i I) as [(X & Y & Z0)|[(X & Y & Z0)|(X & Y & Z0)]]; congruence|].
    split; [apply (and_zero n); [unfold n; lia|unfold n; lia|]; intros i I A B; destruct (O i I) as [(X & Y & Z0)|[(X & Y & Z0)|(X & Y & Z0)]]; congruence|].
    split; [apply (and_zero n); [unfold n; lia|unfold n; lia|]; intros i I A B; destruct (O i I) as [(X & Y & Z0)|[(X & Y & Z0)|(X & Y & Z0)]]; congruence|].
    split; [apply TR; exact I1|]. split; [apply TR; exact I2|]. split; [apply TR; exact I3|]. split; [apply LR; exact I1|]. split; [apply LR; exact I2|]. split; [apply LR; exact I3|]. lia.
Qed.
Lemma check_spec : forall k, per_node k -> (check_graph k = Ok tt <-> one_mask k /\ k_y k = k_label k /\ Z.of_nat (List.length (k_edges k)) = k_nodes k /\ in_range k).
Proof.
  intros k PN. pose proof PN as (N0 & FM & _ & _). set (n := Z.to_nat (k_nodes k)) in *. inversion FM as [|? ? L1 F1]; inversion F1 as [|? ? L2 F2]; inversion F2 as [|? ? L3 F3]; subst.
  assert (OM : k_nodes k = count (k_train k) + count (k_val k) + count (k_test k) /\ count (mask_or (mask_or (k_train k) (k_val k)) (k_test k)) = k_nodes k <-> one_mask k).
  { replace (k_nodes k) with (Z.of_nat n) at 1 2 by (unfold n; lia). rewrite (counts_one n) by (unfold n; lia). rewrite (tri_nth n) by (unfold n; lia). unfold one_mask. fold n.
    split; intros H i I; apply one_nth, H, I. }
  unfold check_graph. rewrite bind_check, bind_check, !Z.eqb_eq. split.
  - intros (A & B & H). assert (O : one_mask k) by (apply OM; auto). destruct (check_masking k) as [[]|] eqn:CM; [|discriminate]. cbn [bind] in H.
    apply (masking_iff k PN O) in CM. apply (edges_iff k PN O A) in H. tauto.
  - intros (O & Y & E). pose proof (proj2 OM O) as [A B]. split; [exact A|]. split; [exact B|]. rewrite (proj2 (masking_iff k PN O) Y). cbn [bind]. apply (edges_iff k PN O A). exact E.
Qed.
