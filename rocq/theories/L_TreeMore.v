From Coq Require Import QArith Lia Lqa Sorted Permutation.
From Verif Require Import PyBase M_FloatInterval M_Node M_Tree M_TreeSet M_TreeMore S_FloatInterval S_Tree S_TreeSet S_TreeMore
  L_Base L_FloatInterval L_Tree L_Tree2 L_Tree3 L_TreeSet.
Open Scope Z_scope.

Lemma total_app : forall a b, total (a ++ b) = total a + total b.
Proof. induction a; intros; unfold total in *; cbn [app fold_right]; [lia|rewrite IHa; lia]. Qed.
Lemma total_const : forall {A} (s : list A) c, total (map (fun _ => c) s) = c * Z.of_nat (List.length s).
Proof. induction s; intros; unfold total in *; cbn [map fold_right List.length]; [lia|rewrite IHs; lia]. Qed.
Lemma helper_levels : forall t d o, nd_depth_score_helper t d o = total (map (fun d => Z.max 0 (d - o)) (levels d t)).
Proof.
  induction t as [|x s l IHl r IHr dd b]; intros d o; [reflexivity|].
  cbn [nd_depth_score_helper levels]. cbv zeta. rewrite !map_app, !total_app, IHl, IHr, map_map, total_const.
  destruct (Z.ltb_spec 0 (d - o)); [rewrite Z.max_r by lia|rewrite Z.max_l by lia]; lia.
Qed.
Lemma total_nonneg : forall l, (forall x, In x l -> 0 <= x) -> 0 <= total l.
Proof.
  induction l as [|a l IH]; intros H; unfold total in *; cbn [fold_right]; [lia|].
  specialize (H a (or_introl eq_refl)) as A. assert (0 <= fold_right Z.add 0 l) by (apply IH; intros; apply H; simpl; auto). lia.
Qed.
Lemma late_nonneg : forall o t, 0 <= lateness o t.
Proof. intros. apply total_nonneg. intros x Hx. apply in_map_iff in Hx as [y [<- _]]. lia. Qed.
Lemma late_zero : forall o t, lateness o t = 0 <-> forall d, In d (levels 1 t) -> d <= o.
Proof.
  intros o t. unfold lateness. induction (levels 1 t) as [|a l IH]; cbn [map].
  - unfold total; cbn. split; [intros _ d []|auto].
  - assert (N : 0 <= total (map (fun d => Z.max 0 (d - o)) l)).
    { apply total_nonneg. intros x Hx. apply in_map_iff in Hx as [y [<- _]]. lia. }
    unfold total in *. cbn [fold_right]. split.
    + intros E d [<-|Hd]; [lia|]. apply IH; auto. lia.
    + intros H. assert (a <= o) by (apply H; simpl; auto).
      assert (X : fold_right Z.add 0 (map (fun d => Z.max 0 (d - o)) l) = 0) by (apply IH; intros; apply H; simpl; auto). lia.
Qed.
Lemma enough_log2 : forall o m, enough_levels o m -> 1 <= m -> o = 1 + Z.log2 m.
Proof.
  intros o m [A B] M. assert (O1 : 1 <= o).
  { destruct (Z.le_gt_cases 1 o); auto. exfalso. assert (X : 2 ^ o <= 2 ^ 0).
    { destruct (Z.eq_dec o 0); [subst; lia|]. rewrite Z.pow_neg_r by lia. cbn; lia. } change (2 ^ 0) with 1 in X. lia. }
  assert (E : Z.log2 m = o - 1) by (apply Z.log2_unique; [lia|replace (Z.succ (o - 1)) with o by lia; auto]). lia.
Qed.
Lemma log2_enough : forall m, 1 <= m -> enough_levels (1 + Z.log2 m) m.
Proof.
  intros m M. destruct (Z.log2_spec m) as [A B]; [lia|]. split; [replace (1 + Z.log2 m - 1) with (Z.log2 m) by lia; auto|].
  replace (1 + Z.log2 m) with (Z.succ (Z.log2 m)) by lia. auto.
Qed.

Lemma size_pos : forall t, t <> Nil -> (1 <= nd_size t)%nat.
Proof. intros [|] H; [contradiction|]. simpl. lia. Qed.
Lemma inv_nodes : forall t, inv t -> (1 <= t_len t)%nat -> top_node t <> Nil.
Proof.
  intros t I N E. unfold t_len in N. destruct (all_intervals t) as [|i l] eqn:EE; [simpl in N; lia|].
  assert (X : In i (nd_elems (top_node t))) by (apply I; rewrite EE; simpl; auto). rewrite E in X. exact X.
Qed.
Lemma Qdiv_zz : forall a b : Z, b <> 0 -> (inject_Z a / inject_Z b * inject_Z b == inject_Z a)%Q.
Proof.
  intros a b H.
  assert (E : ~ (inject_Z b == 0)%Q) by (intro E; change 0%Q with (inject_Z 0) in E; apply (proj1 (inject_Z_injective _ _)) in E; congruence).
  field. exact E.
Qed.

Lemma report_ok : forall t, inv t -> (2 < Z.of_nat (t_len t)) ->
  let n := Z.of_nat (t_len t) in let m := Z.of_nat (nd_size (top_node t)) in
  forall o, enough_levels o m ->
  (o = n + 1 -> t_score t = Err ZeroDivisionError) /\
  (o <> n + 1 -> exists r, t_score_report t = Ok r /\ t_score t = Ok (sc_cumulative r) /\
     (sc_depth r * inject_Z (1 + n - o) == inject_Z (lateness o (top_node t)))%Q /\
     (sc_center r * inject_Z (n - 1) == inject_Z (n - m))%Q /\
     (sc_cumulative r == sc_depth r \/ sc_cumulative r == sc_center r)%Q /\
     (sc_depth r <= sc_cumulative r)%Q /\ (sc_center r <= sc_cumulative r)%Q).
Proof.
  intros t I N n m o E.
  assert (TN : top_node t <> Nil) by (apply inv_nodes; auto; lia).
  assert (SP := size_pos _ TN). assert (Eo : o = 1 + Z.log2 m) by (apply enough_log2; auto; unfold m; lia).
  assert (NN : is_nil (top_node t) = false) by (destruct (top_node t); auto; contradiction).
  assert (L2 : Nat.leb (t_len t) 2 = false) by (apply Nat.leb_gt; lia).
  unfold t_score, t_score_report. rewrite L2, NN. cbv zeta. fold n m. unfold nd_depth_score.
  assert (n =? 0 = false) as -> by (apply Z.eqb_neq; unfold n; lia). cbv zeta. rewrite <- Eo.
  split; intros C.
  - assert (1 + n - o =? 0 = true) as -> by (apply Z.eqb_eq; lia). reflexivity.
  - assert (1 + n - o =? 0 = false) as -> by (apply Z.eqb_neq; lia). cbn [bind].
    eexists. split; [reflexivity|]. split; [reflexivity|]. cbn [sc_depth sc_center sc_cumulative].
    split; [|split; [|]].
    + rewrite helper_levels. fold (lateness o (top_node t)).
      assert (X := Qdiv_zz (lateness o (top_node t)) (1 + n - o)). assert (1 + n - o <> 0) as D by lia. specialize (X D).
      rewrite <- X. assert (E0 : ~ (inject_Z (1 + n - o) == 0)%Q) by (intro Z0; change 0%Q with (inject_Z 0) in Z0; apply (proj1 (inject_Z_injective _ _)) in Z0; lia).
      field. exact E0.
    + apply Qdiv_zz. unfold n. lia.
    + set (a := (1 / inject_Z (1 + n - o) * inject_Z (nd_depth_score_helper (top_node t) 1 o))%Q).
      set (b := (inject_Z (n - m) / inject_Z (n - 1))%Q).
      destruct (Qmaxb_spec a b) as [[A ->]|[A ->]]; (split; [first [right; reflexivity|left; reflexivity]|split; lra]).
Qed.

Lemma score_small : forall t, (t_len t <= 2)%nat -> t_score t = Ok 0%Q.
Proof. intros t H. unfold t_score. assert (Nat.leb (t_len t) 2 = true) as -> by (apply Nat.leb_le; auto). reflexivity. Qed.

Lemma score_ok : forall t, history t ->
  let n := Z.of_nat (t_len t) in let m := Z.of_nat (nd_size (top_node t)) in
  (n <= 2 -> t_score t = Ok 0%Q) /\
  (2 < n -> exists o, enough_levels o m) /\
  (2 < n -> forall o, enough_levels o m ->
     (o = n + 1 -> t_score t = Err ZeroDivisionError) /\
     (o <> n + 1 -> exists r, t_score_report t = Ok r /\ t_score t = Ok (sc_cumulative r) /\
        (sc_depth r * inject_Z (1 + n - o) == inject_Z (lateness o (top_node t)))%Q /\
        (sc_center r * inject_Z (n - 1) == inject_Z (n - m))%Q /\
        (sc_cumulative r == sc_depth r \/ sc_cumulative r == sc_center r)%Q /\
        (sc_depth r <= sc_cumulative r)%Q /\ (sc_center r <= sc_cumulative r)%Q)).
Proof.
  intros t H n m. apply history_inv in H. split; [|split].
  - intros N. apply score_small. unfold n in N. lia.
  - intros N. exists (1 + Z.log2 m). apply log2_enough. assert (X := size_pos _ (inv_nodes t H ltac:(unfold n in N; lia))). unfold m. lia.
  - intros N o E. apply (report_ok t H N o E).
Qed.

Lemma insert_inv : forall ops, Forall insert_only ops -> inv_add (t_run t_empty ops).
Proof.
  intros ops H.
  assert (G : forall ops t, Forall insert_only ops -> inv_add t -> inv_add (t_run t ops)).
  { clear. induction ops as [|o ops IH]; intros t H I; auto. inversion H; subst.
    unfold t_run in *. simpl. apply IH; auto. destruct o; simpl in *; try contradiction.
    - apply t_add_inv_add; auto.
    - apply t_update_inv_add; auto. }
  apply G; auto. split; simpl; auto. apply inv_empty.
Qed.
Lemma log2_le : forall m, 1 <= m -> 1 + Z.log2 m <= m.
Proof. intros m M. assert (X := Z.log2_lt_lin m). lia. Qed.

Lemma positive_score : forall t, inv t -> (nd_size (top_node t) <= t_len t)%nat -> 2 < Z.of_nat (t_len t) ->
  forall o, enough_levels o (Z.of_nat (nd_size (top_node t))) -> exists q, t_score t = Ok q /\ (0 <= q)%Q /\
  (nd_size (top_node t) = t_len t -> (q * inject_Z (1 + Z.of_nat (t_len t) - o) == inject_Z (lateness o (top_node t)))%Q /\
     ((q == 0)%Q <-> forall d, In d (levels 1 (top_node t)) -> d <= o)).
Proof.
  intros t I M N o E. assert (SP := size_pos _ (inv_nodes t I ltac:(lia))).
  destruct (report_ok t I N o E) as [_ R]. assert (Eo := enough_log2 _ _ E ltac:(lia)).
  assert (LL := log2_le (Z.of_nat (nd_size (top_node t))) ltac:(lia)).
  destruct R as [r [R1 [R2 [R3 [R4 [R5 [R6 R7]]]]]]]; [lia|].
  set (n := Z.of_nat (t_len t)) in *. set (m := Z.of_nat (nd_size (top_node t))) in *.
  assert (DP : (0 < inject_Z (1 + n - o))%Q) by (change 0%Q with (inject_Z 0); rewrite <- Zlt_Qlt; unfold n, m in *; lia).
  assert (CP : (0 < inject_Z (n - 1))%Q) by (change 0%Q with (inject_Z 0); rewrite <- Zlt_Qlt; unfold n in *; lia).
  assert (LN : (0 <= inject_Z (lateness o (top_node t)))%Q) by (change 0%Q with (inject_Z 0); rewrite <- Zle_Qle; apply late_nonneg).
  assert (D0 : (0 <= sc_depth r)%Q).
  { destruct (Qlt_le_dec (sc_depth r) 0) as [X|X]; auto. exfalso. assert (sc_depth r * inject_Z (1 + n - o) < 0)%Q by nra. lra. }
  exists (sc_cumulative r). split; auto. split; [lra|]. intros EQ.
  assert (C0 : (sc_center r == 0)%Q).
  { assert (n - m = 0) as Z0 by (unfold n, m; lia). rewrite Z0 in R4. change (inject_Z 0) with 0%Q in R4. nra. }
  assert (EQD : (sc_cumulative r == sc_depth r)%Q) by (destruct R5; lra).
  split; [rewrite EQD; exact R3|]. rewrite EQD. rewrite <- late_zero. split.
  - intros Q0. rewrite Q0 in R3. assert (X : (inject_Z (lateness o (top_node t)) == inject_Z 0)%Q) by (change (inject_Z 0) with 0%Q; lra).
    exact (proj1 (inject_Z_injective _ _) X).
  - intros L0. rewrite L0 in R3. change (inject_Z 0) with 0%Q in R3. nra.
Qed.

Lemma insertions_score : forall ops, Forall insert_only ops -> let t := t_run t_empty ops in
  2 < Z.of_nat (t_len t) -> forall o, enough_levels o (Z.of_nat (t_len t)) ->
  exists q, t_score t = Ok q /\ (0 <= q)%Q /\
    (q * inject_Z (1 + Z.of_nat (t_len t) - o) == inject_Z (lateness o (top_node t)))%Q /\
    ((q == 0)%Q <-> forall d, In d (levels 1 (top_node t)) -> d <= o).
Proof.
  intros ops H t N o E. destruct (insert_inv ops H) as [I B O P]. fold t in I, B, O, P.
  assert (S1 : nd_size (top_node t) = t_len t).
  { rewrite (one_per_node_size _ O). unfold t_len. apply Permutation_length. auto. }
  destruct (positive_score t I ltac:(lia) N o) as [q [Q1 [Q2 Q3]]]; [rewrite S1; auto|].
  destruct (Q3 S1) as [Q4 Q5]. eauto.
Qed.

(** constructor: every node holds an interval *)
Lemma from_sorted_full : forall f ivs t, (List.length ivs < f)%nat -> NoDup ivs -> (forall i, In i ivs -> ordinary i) ->
  from_sorted f ivs = Ok t -> Forall (fun p => snd p <> []) (inorder t).
Proof.
  induction f as [|f IH]; intros ivs t Hf Hnd Ho; [lia|].
  cbn [from_sorted]. destruct ivs as [|first rest] eqn:Eivs.
  { intros E. assert (t = Nil) by congruence. subst. constructor. }
  rewrite <- Eivs in *.
  set (k0 := nth (List.length ivs / 2) ivs first). set (c := f_begin k0).
  assert (Hk0 : In k0 ivs).
  { apply nth_In. apply Nat.div_lt; [|lia]. subst ivs; simpl; lia. }
  set (p := fun k => c <? f_begin k). set (q := fun k => zclose (f_end k) c).
  change (filter (fun k => c <? f_begin k) ivs) with (filter p ivs).
  change (filter (fun k => negb (c <? f_begin k) && zclose (f_end k) c) ivs)
    with (filter (fun k => negb (p k) && q k) ivs).
  change (filter (fun k => negb (c <? f_begin k) && negb (zclose (f_end k) c)) ivs)
    with (filter (fun k => negb (p k) && negb (q k)) ivs).
  assert (P0 : p k0 = false) by (unfold p, c; apply Z.ltb_irrefl).
  assert (Q0 : q k0 = false).
  { unfold q, c. apply zclose_near_false. intro N. apply near_sym in N.
    apply (ordinary_not_near k0); auto. }
  set (LF := filter (fun k => negb (p k) && q k) ivs). set (RF := filter p ivs). set (CF := filter (fun k => negb (p k) && negb (q k)) ivs).
  assert (LL : (List.length LF < f)%nat).
  { assert (X := filter_lt (fun k => negb (p k) && q k) ivs k0 Hk0). cbv beta in X. rewrite P0, Q0 in X. specialize (X eq_refl). unfold LF. lia. }
  assert (LR : (List.length RF < f)%nat) by (assert (X := filter_lt p ivs k0 Hk0 P0); unfold RF; lia).
  assert (NL : NoDup LF) by (apply NoDup_filter; auto). assert (NR : NoDup RF) by (apply NoDup_filter; auto).
  assert (OL : forall i, In i LF -> ordinary i) by (intros i Hi; apply filter_In in Hi; apply Ho; tauto).
  assert (OR : forall i, In i RF -> ordinary i) by (intros i Hi; apply filter_In in Hi; apply Ho; tauto).
  destruct (from_sorted_ok f LF LL NL OL) as [l [L1 [L2 [L3 _]]]].
  destruct (from_sorted_ok f RF LR NR OR) as [r [R1 [R2 [R3 _]]]].
  rewrite L1, R1. cbn [bind]. rewrite set_update_nil by (apply NoDup_filter; auto).
  assert (Hcalm : calm (Nd c CF l r 0 0)).
  { apply calm_node. split; [|split].
    - intros i Hi. eapply Permutation_in in Hi; [|exact L3]. auto.
    - intros i Hi. eapply Permutation_in in Hi; [|exact R3]. auto.
    - intros i Hi. apply filter_In in Hi; apply Ho; tauto. }
  destruct (fuel_big c CF l r 0 0) as [F1 F2].
  destruct (rotate_ok _ c CF l r 0 0 F1) as [t' [T1 [T2 T3]]]; auto.
  intros E. rewrite T1 in E. assert (t' = t) by congruence. subst t'. rewrite T3. cbn [inorder].
  apply Forall_app. split; [apply (IH LF); auto|]. constructor; [|apply (IH RF); auto].
  cbn [snd]. intro Z0. assert (X : In k0 CF) by (apply filter_In; rewrite P0, Q0; auto). rewrite Z0 in X. exact X.
Qed.
Lemma full_size : forall l : list (Z * list fiv), Forall (fun p => snd p <> []) l -> (List.length l <= List.length (flat_map snd l))%nat.
Proof.
  induction l as [|[x s] l IH]; intros H; [simpl; lia|]. inversion H as [|? ? H1 H2]; subst. cbn [flat_map snd List.length] in *. rewrite app_length.
  specialize (IH H2). destruct s; [contradiction|]. simpl. lia.
Qed.
Lemma constructor_score : forall ivs t, (forall i, In i ivs -> ordinary i) -> t_init ivs = Ok t ->
  (nd_size (top_node t) <= t_len t)%nat /\
  exists q, t_score t = Ok q /\ (0 <= q)%Q.
Proof.
  intros ivs t Ho E. destruct (t_init_spec ivs Ho) as [t' [E' [I [_ P]]]]. assert (t' = t) by congruence. subst t'.
  assert (M : (nd_size (top_node t) <= t_len t)%nat).
  { unfold t_len. rewrite <- (Permutation_length P), elems_inorder, size_inorder. apply full_size.
    unfold t_init in E. destruct (set_update_nodup ivs [] (NoDup_nil _)) as [H1 [H2 H3]]. set (s := set_update [] ivs) in *.
    destruct (existsb f_is_null s); [discriminate|]. destruct (from_intervals s) as [n|] eqn:EF; cbn [bind] in E; [|discriminate].
    assert (TE : top_node t = n) by (injection E as <-; reflexivity). rewrite TE. unfold from_intervals in EF.
    assert (PS := py_sort_perm f_ltb s).
    apply (from_sorted_full _ _ _) in EF; auto.
    - rewrite <- (Permutation_length PS). lia.
    - apply py_sort_nodup. auto.
    - intros i Hi. apply Ho. apply Permutation_sym in PS. eapply Permutation_in in Hi; [|exact PS]. apply H2 in Hi. simpl in Hi. tauto. }
  split; auto. destruct (Z.le_gt_cases (Z.of_nat (t_len t)) 2) as [N|N].
  - exists 0%Q. split; [apply score_small; lia|lra].
  - assert (SP := size_pos _ (inv_nodes t I ltac:(lia))).
    destruct (positive_score t I M ltac:(lia) (1 + Z.log2 (Z.of_nat (nd_size (top_node t))))) as [q [Q1 [Q2 _]]]; [apply log2_enough; lia|]. eauto.
Qed.

Lemma discards_score : forall ops del, Forall insert_only ops -> Forall null_or_ordinary del ->
  let m := Z.of_nat (t_len (t_run t_empty ops)) in let t := t_run t_empty (ops ++ [TDiffUpdate del]) in
  let n := Z.of_nat (t_len t) in
  (2 < n -> 2 ^ n <= m < 2 ^ (n + 1) -> t_score t = Err ZeroDivisionError) /\
  (2 < n -> 2 ^ (n + 1) <= m -> exists q, t_score t = Ok q /\ (q <= 0)%Q).
Proof.
  intros ops del H D m t n. destruct (insert_inv ops H) as [I B O P].
  assert (ET : t = snd (t_difference_update (t_run t_empty ops) del)) by (unfold t, t_run; rewrite fold_left_app; reflexivity).
  destruct (t_difference_spec del _ I D) as [J1 [J2 [J3 J4]]]. rewrite <- ET in J1, J3, J4.
  assert (S1 : Z.of_nat (nd_size (top_node t)) = m).
  { rewrite J4, (one_per_node_size _ O). unfold m, t_len. rewrite (Permutation_length P). reflexivity. }
  split; intros N M.
  - destruct (report_ok t J1 N (n + 1)) as [R _]; [rewrite S1; unfold enough_levels; replace (n + 1 - 1) with n by lia; auto|]. auto.
  - assert (M1 : 1 <= m) by (assert (0 < 2 ^ (n + 1)) by (apply Z.pow_pos_nonneg; lia); lia).
    assert (LB : n + 1 <= Z.log2 m).
    { rewrite <- (Z.log2_pow2 (n + 1)) by lia. apply Z.log2_le_mono. auto. }
    destruct (report_ok t J1 N (1 + Z.log2 m)) as [_ R]; [rewrite S1; apply log2_enough; auto|].
    fold n in R. rewrite S1 in R. destruct R as [r [R1 [R2 [R3 [R4 [R5 [R6 R7]]]]]]]; [lia|].
    exists (sc_cumulative r). split; auto.
    assert (DP : (inject_Z (1 + n - (1 + Z.log2 m)) < 0)%Q) by (change 0%Q with (inject_Z 0); rewrite <- Zlt_Qlt; lia).
    assert (CP : (0 < inject_Z (n - 1))%Q) by (change 0%Q with (inject_Z 0); rewrite <- Zlt_Qlt; lia).
    assert (LN : (0 <= inject_Z (lateness (1 + Z.log2 m) (top_node t)))%Q) by (change 0%Q with (inject_Z 0); rewrite <- Zle_Qle; apply late_nonneg).
    assert (NM : (inject_Z (n - m) <= 0)%Q).
    { change 0%Q with (inject_Z 0). rewrite <- Zle_Qle. assert (n < 2 ^ n) by (apply Z.pow_gt_lin_r; lia).
      assert (2 ^ n <= 2 ^ (n + 1)) by (apply Z.pow_le_mono_r; lia). lia. }
    assert (sc_depth r <= 0)%Q.
    { destruct (Qlt_le_dec 0 (sc_depth r)) as [X|X]; auto. exfalso.
      assert (sc_depth r * inject_Z (1 + n - (1 + Z.log2 m)) < 0)%Q by nra. lra. }
    assert (sc_center r <= 0)%Q.
    { destruct (Qlt_le_dec 0 (sc_center r)) as [X|X]; auto. exfalso. assert (0 < sc_center r * inject_Z (n - 1))%Q by nra. lra. }
    destruct R5; lra.
Qed.

Lemma accessors_ok : forall t, history t ->
  lists (t_items t) (has t) /\ (t_is_empty t = true <-> forall k, ~ has t k) /\
  lists (t_repr t) (has t) /\ StronglySorted before (t_repr t) /\
  (forall b e d, null_or_ordinary (mkF b e d) -> let (r, t') := t_setitem t b e d in
     (b < e -> r = Ok tt /\ forall k, has t' k <-> has t k \/ k = mkF b e d) /\ (e <= b -> r = Err ValueError /\ t' = t)).
Proof.
  intros t H. apply history_inv in H. unfold has. split; [|split; [|split; [|split]]].
  - unfold t_items. rewrite set_update_nil by apply H. split; [apply H|]. intro k. symmetry. apply contains_In.
  - unfold t_is_empty, t_len. destruct (all_intervals t) as [|i l] eqn:E; cbn [List.length Nat.eqb]; split; intros X; auto; try discriminate.
    + intros k Hk. apply contains_In in Hk. rewrite E in Hk. exact Hk.
    + exfalso. apply (X i). apply contains_In. rewrite E. simpl. auto.
  - unfold t_repr. split; [apply py_sort_nodup; apply H|]. intro k. rewrite contains_In.
    assert (P := py_sort_perm f_ltb (all_intervals t)). split; apply Permutation_in; auto. symmetry; auto.
  - assert (S1 := sorted_members t H). unfold t_repr. assert (ND := py_sort_nodup _ (i_nodup t H)).
    destruct f_order_lemma as [T0 T1 T2 T3].
    induction S1 as [|a l S1 IH F]; constructor; inversion ND as [|? ? N1 N2]; subst; auto.
    apply Forall_forall. intros b Hb. rewrite Forall_forall in F. specialize (F b Hb).
    destruct (T3 a b) as [X|[X|X]]; [apply f_ltb_spec; auto|subst; contradiction|congruence].
  - intros b e d O. unfold t_setitem. destruct (t_add_spec t (mkF b e d) H O) as [A1 [A2 [A3 [A4 A5]]]].
    destruct (t_add t (mkF b e d)) as [r t'] eqn:E. cbn [fst snd f_begin f_end] in *. split; intros BE.
    + destruct O as [O|O]; [cbn in O; lia|]. assert (e <=? b = false) as L by (apply Z.leb_gt; lia). rewrite L in A2.
      split; auto. intro k. rewrite !contains_In. destruct (t_contains t (mkF b e d)) eqn:C.
      * apply contains_In in C. specialize (A4 C). injection A4 as -> ->. split; [auto|intros [?| ->]; auto].
      * apply contains_false in C. destruct (A5 O C) as [A6 _]. rewrite A6, in_app_iff. simpl. split; intros [?|?]; auto; intuition.
    + assert (e <=? b = true) as L by (apply Z.leb_le; lia). rewrite L in A2. split; auto.
Qed.

Lemma overlaps_false : forall t a, history t -> t_overlaps t a = false.
Proof.
  intros t a H. apply history_inv in H.
  assert (P : forall p, t_overlaps_point t p = false).
  { intro p. unfold t_overlaps_point. destruct (t_len t =? 0)%nat; auto. apply calm_contains_point. apply H. }
  assert (R : forall b e, t_overlaps_range t b e = false).
  { intros b e. unfold t_overlaps_range. destruct (t_len t =? 0)%nat; auto. destruct (e <=? b); auto.
    rewrite P. simpl. match goal with |- existsb ?f ?l = false => induction l; simpl; auto end. rewrite P; auto. }
  destruct a; cbn [t_overlaps]; auto.
Qed.
Lemma named_methods : forall t u b e d l,
  t_difference t u = Err NameError /\ t_union t u = Err NameError /\ t_intersection t u = Err NameError /\
  t_symmetric_difference t u = Err NameError /\ t_from_tuples l = Err NameError /\ t_range t = Err NameError /\
  t_containsi t b e d = Err NameError /\ t_removei t b e d = (Err NameError, t) /\ t_discardi t b e d = (Err NameError, t) /\
  t_find_nested t = Err NameError /\ t_eq t u = Err NameError.
Proof.
  intros. repeat split; try reflexivity.
  - unfold t_intersection. destruct (Nat.ltb (t_len u) (t_len t)); reflexivity.
  - unfold t_from_tuples. destruct l as [|[[x y] z] l]; [reflexivity|]. cbn [fold_left bind mk_interval fst snd].
    replace (fold_left _ l (Err NameError)) with (@Err (list fiv) NameError); [reflexivity|].
    induction l; auto.
Qed.
