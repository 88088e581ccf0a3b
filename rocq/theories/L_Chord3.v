From Coq Require Import Sorted Permutation Relations QArith Qabs Qround Lia Lqa.
From Verif Require Import PyBase L_Base L_Sort M_Note L_Note L_Note2 M_Events M_Seq S_Seq L_Seq M_Chord M_Graph S_Graph L_Chord L_Chord2.
Open Scope Z_scope.

Lemma members_iff : forall key k n, soundb n && (key n =? k) = true <-> sounding n /\ key n = k.
Proof. intros. rewrite andb_true_iff, soundb_iff, Z.eqb_eq. reflexivity. Qed.
Lemma members_selects : forall key k l, selects (fun n => sounding n /\ key n = k) l (members key k l).
Proof. intros. apply selects_filter. intro x. apply members_iff. Qed.
Lemma selects_members : forall key k l g, selects (fun n => sounding n /\ key n = k) l g -> g = members key k l.
Proof.
  intros key k l g H. induction H as [|x l g P H IH|x l g P H IH]; [reflexivity| |].
  - unfold members. cbn [filter]. rewrite (proj2 (members_iff key k x) P). f_equal. exact IH.
  - unfold members. cbn [filter]. destruct (soundb x && (key x =? k)) eqn:E; [apply members_iff in E; contradiction|exact IH].
Qed.
Lemma data_In : forall key notes data lg k g, inv_data key notes data lg -> (In (k, g) data <-> g = members key k notes /\ g <> []).
Proof.
  intros key notes data lg k g [I1 [I2 _]]. split.
  - intros H. apply (dict_In_get Z.eqb zreflect _ _ _ I1) in H. rewrite I2 in H. destruct (members key k notes); [discriminate|]. injection H as <-. split; [auto|discriminate].
  - intros [-> N]. apply (dict_get_In Z.eqb zreflect). rewrite I2. destruct (members key k notes); congruence.
Qed.
Lemma filter_NoDup : forall A (f : A -> bool) l, NoDup l -> NoDup (filter f l).
Proof. intros. apply NoDup_filter. auto. Qed.
Lemma filter_keys_NoDup : forall A B (f : A * B -> bool) l, NoDup (map fst l) -> NoDup (map fst (filter f l)).
Proof.
  intros A B f l. induction l as [|x l IH]; intros N; [constructor|]. cbn in N. inversion N as [|? ? N1 N2]; subst. cbn [filter].
  destruct (f x); auto. cbn. constructor; auto. intros H. apply N1. apply in_map_iff in H as [y [Y1 Y2]]. apply filter_In in Y2 as [Y2 _].
  rewrite <- Y1. apply in_map. exact Y2.
Qed.
Lemma key_sorted : forall data : list (Z * list note), NoDup (map fst data) ->
  StronglySorted Z.lt (map fst (py_sort (fun a b => fst a <? fst b) data)).
Proof.
  intros data N. set (lt := fun a b : Z * list note => fst a <? fst b).
  assert (S : StronglySorted (fun a b => lt b a = false) (py_sort lt data)).
  { apply py_sort_sorted; unfold lt; intros.
    - apply Z.ltb_lt in H. apply Z.ltb_ge. lia.
    - apply Z.ltb_ge in H, H0. apply Z.ltb_ge. lia. }
  assert (N' : NoDup (map fst (py_sort lt data))) by (eapply Permutation_NoDup; [apply Permutation_map; apply py_sort_perm|exact N]).
  induction (py_sort lt data) as [|x l IH]; [constructor|]. apply StronglySorted_inv in S as [S1 S2]. cbn in N'. inversion N' as [|? ? M1 M2]; subst.
  cbn. constructor; [apply IH; auto|]. apply Forall_forall. intros k Hk. apply in_map_iff in Hk as [y [<- Hy]]. rewrite Forall_forall in S2.
  specialize (S2 y Hy). unfold lt in S2. apply Z.ltb_ge in S2. assert (fst x <> fst y); [|lia]. intros E. apply M1. rewrite E. apply in_map. exact Hy.
Qed.

Lemma compute_groups : forall e s tol filt data lg, compute_data e s tol filt true 2 = Ok (data, lg) ->
  let key := fun n => e_thash e (adjusted (compute_tolerance s 95) true 2 (n_start n)) in
  groups_of key filt (q_notes s) (in_key_order data).
Proof.
  intros e s tol filt data lg H key. unfold compute_data in H. cbv zeta in H.
  destruct (group_notes e (compute_tolerance s 95) true 2 [] 0 (q_notes s)) as [[d l]|x] eqn:G; [|discriminate]. cbn [bind fst snd] in H.
  apply Ok_inj in H. injection H as H ->. apply (group_inv e _ _ _ _ [] [] 0) in G; [|apply inv_empty_data]. cbn [app] in G. fold key in G.
  assert (D : forall k g, In (k, g) data <-> g = members key k (q_notes s) /\ g <> [] /\ (filt = true -> (2 <= List.length g)%nat)).
  { intros k g. destruct filt.
    - rewrite <- H. rewrite filter_In. rewrite (data_In key (q_notes s) d lg k g G). cbn [snd]. rewrite Nat.ltb_lt. intuition lia.
    - rewrite <- H. rewrite (data_In key (q_notes s) d lg k g G). intuition congruence. }
  assert (N : NoDup (map fst data)) by (destruct filt; rewrite <- H; [apply filter_keys_NoDup|]; apply G).
  clear H G. set (lt := fun a b : Z * list note => fst a <? fst b). unfold in_key_order. fold lt.
  assert (P : Permutation data (py_sort lt data)) by apply py_sort_perm.
  exists (map fst (py_sort lt data)). split; [apply key_sorted; exact N|]. split; [|split].
  - assert (F : Forall (fun kg => In kg data) (py_sort lt data)).
    { apply Forall_forall. intros x Hx. eapply Permutation_in; [symmetry; exact P|exact Hx]. }
    revert F. generalize (py_sort lt data). intros r F. induction r as [|[k g] r IH]; [constructor|]. inversion F as [|? ? F1 F2]; subst. cbn. constructor; [|auto].
    apply D in F1 as [F1 [F3 F4]]. split; [rewrite F1; apply members_selects|]. split; auto.
  - intros n Hn Sn ->. assert (I : In (key n, members key (key n) (q_notes s)) data).
    { apply D. split; auto. split; [|discriminate]. intros E.
      assert (X : In n (members key (key n) (q_notes s))) by (unfold members; apply filter_In; split; auto; apply members_iff; auto). rewrite E in X. destruct X. }
    apply (in_map fst) in I. cbn in I. eapply Permutation_in; [apply Permutation_map; exact P|exact I].
  - intros k g Hg L. apply selects_members in Hg. assert (I : In (k, g) data).
    { apply D. split; auto. split; [|auto]. intros ->. cbn in L. lia. }
    apply (in_map fst) in I. cbn in I. eapply Permutation_in; [apply Permutation_map; exact P|exact I].
Qed.

(** Distinct elements and slices. *)
Lemma distinct_NoDup : forall l, NoDup (distinct l).
Proof.
  induction l as [|a l IH]; [constructor|]. cbn. constructor; [|apply NoDup_filter; auto].
  intros H. apply filter_In in H as [_ H]. rewrite Z.eqb_refl in H. discriminate.
Qed.
Lemma distinct_In : forall l x, In x (distinct l) <-> In x l.
Proof.
  induction l as [|a l IH]; intros x; [reflexivity|]. cbn. rewrite filter_In, IH.
  destruct (Z.eqb_spec x a) as [->|N]; [|intuition].
  cbn. intuition.
Qed.
Lemma distinct_id : forall l, NoDup l -> distinct l = l.
Proof.
  induction l as [|a l IH]; intros N; [reflexivity|]. inversion N as [|? ? N1 N2]; subst. cbn. f_equal. rewrite IH by auto.
  clear - N1. induction l as [|b l IH]; [reflexivity|]. cbn. destruct (Z.eqb_spec b a) as [->|]; [exfalso; apply N1; left; auto|]. cbn. f_equal.
  apply IH. intros H. apply N1. right. auto.
Qed.
Lemma slices_concat : forall fuel k l, (0 < k)%nat -> (List.length l <= fuel)%nat -> List.concat (slices fuel k l) = l.
Proof.
  induction fuel as [|f IH]; intros k l K L; [destruct l; [reflexivity|cbn in L; lia]|].
  destruct l as [|a l]; [reflexivity|]. cbn [slices List.concat]. rewrite IH; [apply firstn_skipn|auto|]. rewrite skipn_length. cbn [List.length] in *. lia.
Qed.
Lemma slices_sizes : forall fuel k l, (0 < k)%nat -> (List.length l <= fuel)%nat -> Forall (fun c => c <> [] /\ (List.length c <= k)%nat) (slices fuel k l).
Proof.
  induction fuel as [|f IH]; intros k l K L; [constructor|]. destruct l as [|a l]; [constructor|]. cbn [slices]. constructor.
  - split; [|rewrite firstn_length; lia]. destruct k; [lia|]. discriminate.
  - apply IH; auto. rewrite skipn_length. cbn [List.length] in *. lia.
Qed.
Lemma slices_full : forall fuel k l, (0 < k)%nat -> (List.length l <= fuel)%nat -> forall c1 c cs2, slices fuel k l = c1 ++ c :: cs2 -> cs2 <> [] -> List.length c = k.
Proof.
  induction fuel as [|f IH]; intros k l K L c1 c cs2 E NE; [destruct c1; discriminate|]. destruct l as [|a l]; [destruct c1; discriminate|].
  cbn [slices] in E. destruct c1 as [|c0 c1]; cbn [app] in E; injection E as E1 E2.
  - rewrite <- E1, firstn_length. destruct (Nat.le_gt_cases k (List.length (a :: l))); [lia|].
    exfalso. apply NE. rewrite <- E2. rewrite skipn_all2 by lia. destruct f; reflexivity.
  - eapply (IH k (skipn k (a :: l))); eauto. rewrite skipn_length. cbn [List.length] in *. lia.
Qed.
Lemma concat_perm_each : forall (f : list Z -> list Z) cs, Forall (fun c => Permutation (f c) c) cs -> Permutation (List.concat (map f cs)) (List.concat cs).
Proof. induction 1; cbn; [constructor|]. apply Permutation_app; auto. Qed.
Lemma NoDup_concat_each : forall cs : list (list Z), NoDup (List.concat cs) -> Forall (@NoDup Z) cs.
Proof.
  induction cs as [|c cs IH]; intros N; [constructor|]. cbn in N. constructor.
  - clear - N. induction c as [|a c IH]; [constructor|]. cbn in N. inversion N; subst. constructor; auto. intros H. apply H1. apply in_or_app. auto.
  - apply IH. clear - N. induction c as [|a c IH]; auto. cbn in N. inversion N; auto.
Qed.
Lemma split_chord_splits : forall e size notes, env_ok e -> 0 < size -> notes <> [] -> splits size notes (split_chord e size notes).
Proof.
  intros e size notes [_ [EO _]] SZ NE. unfold split_chord. set (g := frozenset e (map n_pitch notes)).
  assert (PG : Permutation g (distinct (map n_pitch notes))) by (apply EO; apply distinct_NoDup).
  assert (NG : NoDup g) by (eapply Permutation_NoDup; [symmetry; exact PG|apply distinct_NoDup]).
  assert (IG : forall p, In p g <-> exists n, In n notes /\ n_pitch n = p).
  { intro p. split.
    - intros H. apply (Permutation_in _ PG) in H. apply (proj1 (distinct_In _ _)) in H. apply in_map_iff in H as [n [A B]]. eauto.
    - intros [n [A B]]. apply (Permutation_in _ (Permutation_sym PG)). apply (proj2 (distinct_In _ _)). apply in_map_iff. eauto. }
  assert (GE : g <> []).
  { destruct notes as [|n r]; [congruence|]. intros E.
    assert (X : In (n_pitch n) g) by (apply IG; exists n; split; [left|]; auto). rewrite E in X. destruct X. }
  destruct (Z.ltb_spec size (Z.of_nat (List.length g))) as [L|L].
  - set (cs := slices (List.length g) (Z.to_nat size) g).
    assert (K : (0 < Z.to_nat size)%nat) by lia.
    assert (CC : List.concat cs = g) by (apply slices_concat; auto).
    assert (EACH : Forall (fun c => Permutation (frozenset e c) c) cs).
    { rewrite <- CC in NG. apply NoDup_concat_each in NG. eapply Forall_impl; [|exact NG]. intros c Nc. unfold frozenset. rewrite distinct_id by auto. apply EO. auto. }
    assert (PC : Permutation (List.concat (map (frozenset e) cs)) g) by (rewrite <- CC; apply concat_perm_each; auto).
    split; [eapply Permutation_NoDup; [symmetry; exact PC|exact NG]|]. split; [|split].
    + intro p. rewrite <- IG. split; apply Permutation_in; [exact PC|symmetry; exact PC].
    + apply Forall_forall. intros c Hc. apply in_map_iff in Hc as [c0 [<- Hc]]. rewrite Forall_forall in EACH. specialize (EACH c0 Hc).
      pose proof (slices_sizes (List.length g) (Z.to_nat size) g K (le_n _)) as SS. rewrite Forall_forall in SS. destruct (SS c0 Hc) as [S1 S2].
      split; [|rewrite (Permutation_length EACH); lia]. intros E. rewrite E in EACH. apply Permutation_nil in EACH. contradiction.
    + intros c1 c cs2 E NE2. apply map_eq_app in E as [l1 [l2 [E1 [E2 E3]]]]. apply map_eq_cons in E3 as [c0 [l3 [E4 [E5 E6]]]]. subst l2 c.
      assert (H : List.length c0 = Z.to_nat size).
      { eapply (slices_full (List.length g) (Z.to_nat size) g K (le_n _) l1 c0 l3); [exact E1|]. intros ->. apply NE2. rewrite <- E6. reflexivity. }
      rewrite Forall_forall in EACH. rewrite (Permutation_length (EACH c0 ltac:(rewrite E1; apply in_or_app; right; left; auto))). lia.
  - assert (CG : List.concat [g] = g) by (cbn [List.concat]; apply app_nil_r). unfold splits. rewrite CG. split; [exact NG|]. split; [exact IG|]. split.
    + constructor; [split; auto|constructor].
    + intros c1 c cs2 E NE2. destruct c1 as [|? c1]; [injection E as _ <-; congruence|destruct c1; discriminate].
Qed.
