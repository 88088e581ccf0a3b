From Coq Require Import Sorted Permutation Relations QArith Qabs Qround Lia Lqa.
From Verif Require Import PyBase L_Base L_Sort M_Note L_Note M_Events M_Seq S_Seq L_Seq M_Chord M_Graph S_Graph L_Chord L_Chord2 L_Chord3 L_Graph L_Graph2 L_Graph3 L_Graph4 L_Graph5 L_Graph6 L_Graph7 L_Graph8 L_Graph9.
Open Scope Z_scope.

Definition zsum (l : list Z) : Z := fold_right Z.add 0 l.
Lemma dict_set_sum : forall (l : list ((Z * Z) * Z)) k, zsum (map snd (dict_set edge_eqb k ((match dict_get edge_eqb k l with Some w => w | None => 0 end) + 1) l)) = zsum (map snd l) + 1.
Proof.
  intros l k. assert (G : forall l w, zsum (map snd (dict_set edge_eqb k w l)) = zsum (map snd l) + w - match dict_get edge_eqb k l with Some w => w | None => 0 end).
  { clear. induction l as [|[k' v] l IH]; intros w; cbn; [lia|]. destruct (edge_eqb k' k); cbn; [lia|]. unfold zsum in *. rewrite IH. lia. }
  rewrite G. lia.
Qed.
Definition total_weight (g : digraph) : Z := zsum (map snd (g_edges g)).
Lemma place_total : forall g p h x names, total_weight (place g (Some p) h x names) = total_weight g + 1.
Proof. intros. unfold total_weight. rewrite place_edges. unfold weight, edge_weight. destruct (chosen g p h) as [a b]. cbn [fst snd]. apply dict_set_sum. Qed.
Lemma put_total : forall items g p, total_weight (fst (fold_left put_item items (g, Some p))) = total_weight g + Z.of_nat (List.length items).
Proof.
  induction items as [|[[h x] names] items IH]; intros g p; cbn [fold_left]; [cbn; lia|]. cbn [put_item fst snd]. rewrite IH, place_total. cbn [List.length]. lia.
Qed.
Lemma build_total_weight : forall e b s c g g' b', env_ok e -> (match g with Some g => g_nodes g <> [] | None => True end) -> build_sequence e b s c g = (Ok g', b') ->
  exists ws, chords_of e s c ws /\ total_weight g' = (match g with Some g => total_weight g | None => 0 end) + Z.of_nat (List.length ws).
Proof.
  intros e b s c g g' b' EO NE H. pose proof (build_valid _ _ _ _ _ _ _ H) as V. destruct (build_items e b s c g g' b' EO H) as [gs [items [G [A [B [R [Z1 Z2]]]]]]].
  exists (List.concat (map (split_chord e (c_size c)) gs)). split; [apply chords_split; auto; lia|].
  destruct gs as [|x gs].
  - rewrite Z1 by auto. cbn. destruct g; cbn; lia.
  - set (cs := List.concat (map (split_chord e (c_size c)) (x :: gs))) in *. clearbody cs. destruct Z2 as [g0 [lst [ST ->]]]; [discriminate|]. assert (L : List.length cs = List.length items) by (rewrite <- (map_length (e_shash e)), <- A, map_length; auto).
    destruct g as [g1|].
    + destruct ST as [-> [ns [p [N ->]]]]. rewrite put_total. lia.
    + destruct ST as [-> ->]. destruct items as [|[[h y] names] items].
      * cbn in L. cbn [fold_left fst]. rewrite L. reflexivity.
      * cbn [fold_left put_item fst snd]. rewrite put_total. rewrite L. cbn [List.length]. replace (total_weight (place g_empty None h y names)) with 1 by reflexivity. lia.
Qed.
Lemma compute_total : forall e s tol f, (forall n, In n (q_notes s) -> sounding n -> (0 <= n_start n)%Q) ->
  exists data lg key, compute_data e s tol f true 2 = Ok (data, lg) /\ time_key e (compute_tolerance s 95) key /\ groups_of key f (q_notes s) (in_key_order data) /\
    (forall k g, selects (fun n => sounding n /\ key n = k) (q_notes s) g -> Z.of_nat (List.length g) <= lg) /\
    (lg = 0 \/ exists k g, selects (fun n => sounding n /\ key n = k) (q_notes s) g /\ Z.of_nat (List.length g) = lg).
Proof.
  intros e s tol f H. destruct (proj1 (group_total e (compute_tolerance s 95) true 2 (q_notes s) [] 0 (tol95 s)) H) as [[d lg] P].
  assert (CD : compute_data e s tol f true 2 = Ok (if f then filter (fun kv => Nat.ltb 1 (List.length (snd kv))) d else d, lg)) by (unfold compute_data; rewrite P; reflexivity).
  eexists _, lg, (key_of e s). split; [exact CD|]. split; [apply key_of_time|]. split; [apply (compute_groups e s tol f _ lg CD)|].
  apply (group_inv e _ _ _ _ [] [] 0) in P; [|apply inv_empty_data]. cbn [app] in P. destruct P as [_ [_ [P1 P2]]]. split.
  - intros k g G. apply selects_members in G. subst g. apply P1.
  - destruct P2 as [P2|[k P2]]; [auto|right]. exists k. eexists. split; [apply members_selects|exact P2].
Qed.
Lemma compute_negative : forall e s tol f n, In n (q_notes s) -> sounding n -> (n_start n < 0)%Q -> compute_data e s tol f true 2 = Err AssertionError.
Proof.
  intros e s tol f n I SD N. unfold compute_data. rewrite (proj2 (group_total e (compute_tolerance s 95) true 2 (q_notes s) [] 0 (tol95 s))) by eauto. reflexivity.
Qed.
Lemma groups_partition : forall key f notes gs n, groups_of key f notes gs -> In n notes ->
  (sounding n -> f = false -> exists l1 g l2, gs = l1 ++ g :: l2 /\ In n g /\ (forall g', In g' (l1 ++ l2) -> ~ In n g')) /\
  (~ sounding n -> forall g, In g gs -> ~ In n g).
Proof.
  intros key f notes gs n GO I. pose proof GO as [ks [ST [F [A B]]]]. destruct (groups_keys key f notes gs ks ST F A B) as [GE GK]. split.
  - intros SD ->. specialize (A n I SD eq_refl). apply in_split in A as [k1 [k2 E]]. exists (map (fun k => members key k notes) k1), (members key (key n) notes), (map (fun k => members key k notes) k2).
    split; [rewrite GE, E, map_app; reflexivity|]. split; [apply members_In; auto|]. intros g' G' N. rewrite <- map_app in G'. apply in_map_iff in G' as [k [<- K]]. apply members_In in N as [_ [_ <-]].
    assert (ND : NoDup ks). { clear - ST. induction ST as [|a l ST IH F]; constructor; auto. intros X. rewrite Forall_forall in F. specialize (F a X). lia. }
    rewrite E in ND. apply NoDup_remove_2 in ND. contradiction.
  - intros NS g G N. destruct (groups_notes _ _ _ _ _ _ GO G N). contradiction.
Qed.
(** The percentile lies between the gaps of the neighbouring ranks. *)
Lemma percentile_rank : forall a p, a <> [] -> (0 <= p)%Q -> (p <= 100)%Q -> exists l, Permutation l a /\ StronglySorted Qle l /\
  let r := (inject_Z (Z.of_nat (List.length l - 1)) * p / 100)%Q in
  let i := Z.to_nat (Qfloor r) in
  (i < List.length l)%nat /\ let lo := nth i l 0%Q in let hi := nth (Nat.min (S i) (List.length l - 1)) l 0%Q in
  (percentile a p == lo + (hi - lo) * (r - inject_Z (Z.of_nat i)))%Q /\ (lo <= percentile a p)%Q /\ (percentile a p <= hi)%Q.
Proof.
  intros a p NE P1 P2. exists (py_sort Qltb a). assert (PS : Permutation a (py_sort Qltb a)) by apply py_sort_perm. split; [symmetry; exact PS|]. split; [apply Qltb_sorted|]. cbv zeta. unfold percentile. cbv zeta.
  set (s := py_sort Qltb a) in *. set (last := (List.length s - 1)%nat). set (v := (inject_Z (Z.of_nat last) * p / 100)%Q).
  assert (LS : (0 < List.length s)%nat) by (rewrite <- (Permutation_length PS); destruct a; [congruence|cbn; lia]).
  destruct (Qfloor_bounds v) as [F1 F2]. assert (V0 : (0 <= inject_Z (Z.of_nat last))%Q) by (change 0%Q with (inject_Z 0); rewrite <- Zle_Qle; lia).
  assert (V1 : (0 <= v)%Q) by (unfold v; apply Qmult_le_0_compat; [apply Qmult_le_0_compat; auto|discriminate]).
  assert (V2 : (v <= inject_Z (Z.of_nat last))%Q).
  { unfold v. unfold Qdiv. setoid_replace (inject_Z (Z.of_nat last)) with (inject_Z (Z.of_nat last) * 100 * / 100)%Q at 2 by field. apply Qmult_le_compat_r; [|discriminate]. rewrite (Qmult_comm _ p), (Qmult_comm _ 100). apply Qmult_le_compat_r; auto. }
  assert (F0 : 0 <= Qfloor v). { apply Z.lt_succ_r. rewrite Zlt_Qlt. unfold Z.succ. rewrite inject_Z_plus. change (inject_Z 0) with 0%Q. change (inject_Z 1) with 1%Q. lra. }
  assert (FL : Qfloor v <= Z.of_nat last) by (rewrite Zle_Qle; lra).
  set (i := Z.to_nat (Qfloor v)) in *. assert (II : (i <= last)%nat) by (unfold i; lia). rewrite (Nat.min_l i last) by auto.
  assert (ZI : inject_Z (Z.of_nat i) = inject_Z (Qfloor v)) by (unfold i; rewrite Z2Nat.id by auto; reflexivity). rewrite ZI.
  split; [unfold last in II; lia|]. split; [reflexivity|].
  assert (LE : (nth i s 0 <= nth (Nat.min (S i) last) s 0)%Q).
  { pose proof (Qltb_sorted a) as ST. fold s in ST. destruct (Nat.lt_ge_cases i last) as [L|L].
    - rewrite Nat.min_l by lia. assert (X : (S i < List.length s)%nat) by (unfold last in L; lia). generalize i X. clear - ST. induction ST as [|x l ST IH F]; intros i X; [cbn in X; lia|].
      destruct i as [|i]; [cbn [nth]; rewrite Forall_forall in F; apply F; apply nth_In; cbn in X; lia|]. cbn [nth] in *. apply IH. cbn in X. lia.
    - replace (Nat.min (S i) last) with i by lia. lra. }
  set (lo := nth i s 0%Q) in *. set (hi := nth (Nat.min (S i) last) s 0%Q) in *. clearbody lo hi. set (t := (v - inject_Z (Qfloor v))%Q).
  assert (T1 : (0 <= t)%Q) by (unfold t; lra). assert (T2 : (t <= 1)%Q) by (unfold t; lra). clearbody t.
  assert (X1 : (0 <= (hi - lo) * t)%Q) by (apply Qmult_le_0_compat; lra). assert (X2 : ((hi - lo) * t <= (hi - lo) * 1)%Q) by (rewrite !(Qmult_comm (hi - lo)); apply Qmult_le_compat_r; lra).
  split; lra.
Qed.
