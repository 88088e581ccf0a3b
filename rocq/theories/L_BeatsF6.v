(** Lemmas about M_BeatsF: downbeats start bars (the proofs of L_Beats4 with the rounded np.isclose). *)
From Coq Require Import Sorted Permutation Lia Lqa Qfield Qabs.
From Verif Require Import PyBase M_Float M_Beats M_BeatsF S_Beats S_Snap S_ShiftF S_BeatsF L_Base L_Note L_Float L_Float2 L_Snap L_NoteF P_Rounding L_ShiftF L_Beats L_Beats2 L_Beats3 L_Beats4 L_BeatsF L_BeatsF2 L_BeatsF3 L_BeatsF5.
Open Scope Q_scope.

Lemma runsf_not_close : forall all q stop, 0 < q -> meters all -> (forall s, In s all -> is_double (ts_time s)) -> forall st l, runsf stop st l -> inv1 all q st ->
  (forall s, In s (ahead st) -> np_isclose_f (b_last st) (ts_time s) = false) ->
  forall s, In s (ahead st) -> forall x, In x l -> x < ts_time s -> np_isclose_f x (ts_time s) = false.
Proof.
  intros all q stop Q0 M D st l R. induction R as [st H|st l H R IH]; intros V NC s I x X LX; [destruct X|].
  destruct X as [<-|X]; [apply NC; auto|].
  assert (GN : forall a b, gt_or_close_f a b = false -> np_isclose_f a b = false) by (intros a b G; unfold gt_or_close_f in G; apply orb_false_iff in G as [_ G]; auto).
  destruct (inv1_next all q st Q0 M D V) as [V' [K [MO [ML _]]]]. specialize (IH V'). set (nb := after_f _ _) in *. clearbody nb.
  destruct (runsf_pairs all q stop Q0 M D _ _ R V') as [_ [_ LO]].
  destruct K as [K1 K2 K3 K4 K5|s1 [r [A1 A2]] GT K1 K2 K3].
  - apply IH; auto.
    + intros s2 I2. rewrite K1. apply GN. apply K5. unfold ahead in *. rewrite K1, K2, K3, K4 in I2. apply in_app_iff in I2 as [I2|I2]; apply in_or_app; auto. left.
      destruct (b_sig st) as [s0|]; [|destruct I2]. destruct (b_first st); cbn [andb] in *; [|destruct I2]. destruct (Qltb nb (ts_time s0)) eqn:L; [|destruct I2]. apply Qltb_lt in L.
      replace (Qltb (b_last st) (ts_time s0)) with true by (symmetry; apply Qltb_lt; lra). auto.
    + pose proof (gtc_f_false _ _ (K5 s I)) as Y. unfold ahead in *. rewrite K1, K2, K3, K4. apply in_app_iff in I as [I|I]; apply in_or_app; auto. left.
      destruct (b_sig st) as [s0|]; [|destruct I]. destruct (b_first st); cbn [andb] in *; [|destruct I]. destruct (Qltb (b_last st) (ts_time s0)); [|destruct I]. destruct I as [<-|[]].
      replace (Qltb nb (ts_time s0)) with true by (symmetry; apply Qltb_lt; auto). left. auto.
  - rewrite A1 in I. destruct I as [<-|I]; [specialize (LO x X); rewrite K1 in LO; lra|]. apply IH; auto.
    + intros s2 I2. rewrite K1. apply GN. pose proof (v_ok _ _ _ V') as [W' [SS' LT']]. pose proof (ahead_after _ _ LT' I2) as L2. rewrite K1 in L2.
      assert (J2 : In s2 (b_sigs (next_beat_f st))). { unfold ahead in I2. rewrite K2, K1 in I2. replace (Qltb (ts_time s1) (ts_time s1)) with false in I2 by (symmetry; apply Qltb_ge; lra). rewrite andb_false_r in I2. exact I2. }
      rewrite K2 in W'. cbn [sig_list app] in W'. inversion W' as [|? ? W1 W2]; subst. rewrite Forall_forall in W1. apply (wide_not_close _ (ts_time s1)); [auto|lra|apply W1; auto].
    + apply ahead_sigs. rewrite <- A2. auto.
Qed.
Lemma find_close_f_at : forall t l1 l2, (forall x, In x l1 -> np_isclose_f x t = false) -> find_close_f (l1 ++ t :: l2) t = Some (List.length l1).
Proof.
  intros t. induction l1 as [|x l1 IH]; intros l2 N; cbn [app find_close_f List.length].
  - rewrite isclose_f_self. auto.
  - rewrite (N x) by (left; auto). rewrite IH; auto. intros y Y. apply N. right. auto.
Qed.
Lemma isclose_f_later : forall t a x, t <= a -> a <= x -> np_isclose_f a t = false -> np_isclose_f x t = false.
Proof.
  intros t a x H1 H2 N. unfold np_isclose_f in *. apply Qle_bool_false in N. apply Qle_bool_false. eapply Qlt_le_trans; [exact N|]. pose proof (fl_mono (a - t) (x - t) ltac:(lra)) as MO. pose proof (fl_nonneg (a - t) ltac:(lra)) as NN.
  destruct (Qabsb_cases (fl (a - t))) as [[A ->]|[A ->]]; destruct (Qabsb_cases (fl (x - t))) as [[B ->]|[B ->]]; lra.
Qed.
Lemma find_close_f_early : forall t start l, t <= start -> (forall x, In x l -> start <= x) -> (exists r, l = start :: r) -> find_close_f l t = Some O \/ find_close_f l t = None.
Proof.
  intros t start l T G [r ->]. cbn [find_close_f]. destruct (np_isclose_f start t) eqn:C; auto. right.
  assert (A : forall x, In x r -> np_isclose_f x t = false) by (intros x X; apply (isclose_f_later t start); auto; apply G; right; auto).
  clear - A. induction r as [|x r IH]; auto. cbn [find_close_f]. rewrite (A x) by (left; auto). cbn in IH. destruct (find_close_f r t); auto.
  cbn in *. assert (X : option_map S (Some n) = None) by (apply IH; intros; apply A; right; auto). discriminate.
Qed.
Lemma spans_f_bars : forall per all l, (forall num, (0 < num)%Z -> beats_per_bar num (per num)) -> distinct_times all -> meters all -> StronglySorted Qlt l ->
  forall rest pre x0 seg s e n, l = pre ++ x0 :: seg -> index_close_f l (ts_time s) 0 = List.length pre -> index_close_f l (ts_time s) e = List.length pre ->
  StronglySorted (fun a b => ts_time a < ts_time b) rest ->
  (forall s', In s' rest -> In (ts_time s') seg /\ In s' all /\ forall x, In x l -> x < ts_time s' -> np_isclose_f x (ts_time s') = false) ->
  (forall s', In s' all -> x0 < ts_time s' -> In s' rest) ->
  (forall t, bars per all n 0 (x0 :: t) = x0 :: bars per all n (n - 1) t) -> n = per (ts_num s) -> (0 < ts_num s)%Z ->
  down_spans_f l e s rest = Ok (bars per all n 0 (x0 :: seg)).
Proof.
  intros per all l PER DT MT SL. induction rest as [|s' r IH]; intros pre x0 seg s e n EL I1 I2 SR HR HA HX HN NP; cbn [down_spans_f].
  - assert (BS : n = bar_step (ts_num s)). { rewrite HN. eapply per_unique; [exact NP| |apply bar_step_spec; auto]. auto. }
    rewrite I2. rewrite stride_ok by auto. rewrite <- BS. f_equal. rewrite EL, skipn_app, skipn_all, Nat.sub_diag. cbn [skipn app]. rewrite HX. unfold every. cbn [every_from]. f_equal.
    destruct (bars_plain per all seg n (n - 1)%nat []) as [k' K].
    { intros x y X Y E. rewrite EL in SL. apply SQ_app in SL as [SL _]. apply StronglySorted_inv in SL as [_ SL]. rewrite Forall_forall in SL. specialize (SL x X). assert (LT : x0 < ts_time y) by lra. destruct (HA y Y LT). }
    rewrite app_nil_r, bars_nil, app_nil_r in K. auto.
  - assert (BS : n = bar_step (ts_num s)). { rewrite HN. eapply per_unique; [exact NP| |apply bar_step_spec; auto]. auto. }
    destruct (HR s' (or_introl eq_refl)) as [H1 [H2 H3]]. apply in_split in H1 as [seg1 [seg2 ES]].
    assert (EL2 : l = (pre ++ x0 :: seg1) ++ ts_time s' :: seg2) by (rewrite EL, ES, <- app_assoc; auto).
    assert (SL2 := SL). rewrite EL2 in SL2. apply SQ_app in SL2 as [SL3 SL4].
    assert (FC : find_close_f l (ts_time s') = Some (List.length (pre ++ x0 :: seg1))).
    { rewrite EL2. apply find_close_f_at. intros x X. apply H3; [rewrite EL2; apply in_app_iff; auto|]. apply SL4; auto. left. auto. }
    rewrite I1. rewrite stride_ok by auto. rewrite <- BS. cbn [bind].
    assert (IC : forall d, index_close_f l (ts_time s') d = List.length (pre ++ x0 :: seg1)) by (intro d; unfold index_close_f; rewrite FC; auto). rewrite IC.
    apply StronglySorted_inv in SR as [SR1 SR2]. rewrite Forall_forall in SR2.
    rewrite (IH (pre ++ x0 :: seg1) (ts_time s') seg2 s' _ (per (ts_num s'))); auto.
    + cbn [bind]. f_equal. unfold slice. rewrite EL2. rewrite <- app_assoc. rewrite skipn_app, skipn_all, Nat.sub_diag. cbn [skipn app]. rewrite app_length. cbn [List.length].
      replace (List.length pre + S (List.length seg1) - List.length pre)%nat with (S (List.length seg1)) by lia. cbn [firstn]. rewrite firstn_app, firstn_all, Nat.sub_diag. cbn [firstn]. rewrite app_nil_r.
      unfold every. cbn [every_from app]. rewrite ES. rewrite HX. f_equal.
      destruct (bars_plain per all seg1 n (n - 1)%nat (ts_time s' :: seg2)) as [k' ->].
      { intros x y X Y E. assert (LX : x0 < x). { assert (Q := SL). rewrite EL in Q. apply SQ_app in Q as [Q _]. apply StronglySorted_inv in Q as [_ Q]. rewrite Forall_forall in Q. apply Q. rewrite ES. apply in_app_iff. auto. }
        assert (LY : x < ts_time s') by (apply SL4; [apply in_app_iff; right; right; auto|left; auto]). assert (LT : x0 < ts_time y) by lra. destruct (HA y Y LT) as [<-|Z]; [lra|]. specialize (SR2 y Z). lra. }
      f_equal. symmetry. apply bars_sig; auto.
    + intros s2 S2. destruct (HR s2 (or_intror S2)) as [J1 [J2 J3]]. split; [|split; auto]. specialize (SR2 s2 S2). rewrite ES in J1. apply in_app_iff in J1 as [J1|[J1|J1]]; auto.
      * assert (ts_time s2 < ts_time s') by (apply SL4; [apply in_app_iff; right; right; auto|left; auto]). lra.
      * rewrite J1 in SR2. lra.
    + intros s2 S2 L2. assert (LT : x0 < ts_time s2). { assert (x0 < ts_time s') by (apply SL4; [apply in_app_iff; right; left; auto|left; auto]). lra. }
      destruct (HA s2 S2 LT) as [<-|Z]; auto. lra.
    + intros t. cbn [bars]. destruct (find (fun s0 => Qeq_bool (ts_time s0) (ts_time s')) all) as [s1|] eqn:E; auto.
      apply find_some in E as [E1 E2]. apply Qeq_bool_iff in E2. assert (s1 = s') by (apply (distinct_same all); auto). subst s1. auto.
    + apply (MT s' H2).
Qed.
Lemma spans_f_strip : forall l start, (forall x, In x l -> start <= x) -> (exists r, l = start :: r) ->
  forall rest s, meters (s :: rest) -> StronglySorted (fun a b => ts_time a <= ts_time b) (s :: rest) -> ts_time s <= start ->
  exists l1 s1 r1, s :: rest = l1 ++ s1 :: r1 /\ ts_time s1 <= start /\ (forall x, In x r1 -> start < ts_time x) /\ down_spans_f l 0 s rest = down_spans_f l 0 s1 r1.
Proof.
  intros l start G HD. induction rest as [|s' r IH]; intros s MT SS T.
  - exists [], s, []. split; auto. split; auto. split; auto. intros x [].
  - apply SSQ_cons in SS as [SS1 SS2]. destruct (Qlt_le_dec start (ts_time s')) as [C|C].
    + exists [], s, (s' :: r). split; auto. split; auto. split; auto. intros x [<-|X]; auto. apply SSQ_cons in SS2 as [SS2 _]. specialize (SS2 x X). lra.
    + destruct (IH s') as [l1 [s1 [r1 [A1 [A2 [A3 A4]]]]]]; auto. { intros x X. apply MT. right. auto. } exists (s :: l1), s1, r1. split; [rewrite A1; auto|]. split; auto. split; auto.
      rewrite <- A4. cbn [down_spans_f].
      assert (Z : forall t, t <= start -> index_close_f l t 0 = O). { intros t Ht. unfold index_close_f. destruct (find_close_f_early t start l Ht G HD) as [-> | ->]; auto. }
      rewrite !Z by auto. rewrite stride_ok by (apply MT; left; auto). cbn [bind]. unfold slice. cbn [Nat.sub firstn]. unfold every. cbn [every_from]. destruct (down_spans_f l 0 s' r); auto.
Qed.
Lemma f_bars : forall t0 q sigs others start l d per n, 0 < q -> meters sigs -> wide sigs -> is_double start -> (forall s, In s sigs -> is_double (ts_time s)) ->
  (forall s, In s sigs -> start < ts_time s -> (2 # 100000000) + (2 # 100000) * Qabs (ts_time s) < ts_time s - start) ->
  (forall s, In s sigs -> ts_time s < piece_end [(t0, q)] (sort_sigs sigs) others) ->
  (forall num, (0 < num)%Z -> beats_per_bar num (per num)) ->
  (forall s, in_force sigs s start -> ts_time s <= start -> n = per (ts_num s)) -> ((forall s, In s sigs -> start < ts_time s) -> n = 4%nat) ->
  beats_f_are [(t0, q)] sigs others start l -> StronglySorted Qlt l -> downbeats_f_are [(t0, q)] sigs others start d -> d = bars per sigs n 0 l.
Proof.
  intros t0 q sigs others start l d per n Q0 MT WDE DBL DS SC EB PER N1 N2 B O4 DB.
  assert (DT := wide_distinct sigs WDE). rewrite (bars_perm per sigs (sort_sigs sigs)) by (auto using sort_perm).
  destruct (beats_f_start [(t0, q)] sigs others start l ltac:(discriminate) B) as [O1 [O3 O2]].
  destruct (downbeats_f_ok l (sort_sigs sigs) start (meters_sort _ MT)) as [d0 [D1 D2]].
  assert (d = d0). { pose proof (down_f_are _ _ _ _ _ _ B D1) as [M1 X1]. destruct DB as [M2 X2]. specialize (X1 (M1 + M2)%nat ltac:(lia)). specialize (X2 (M1 + M2)%nat ltac:(lia)). congruence. } subst d0.
  destruct (Qlt_le_dec start (piece_end [(t0, q)] (sort_sigs sigs) others)) as [LT|GE].
  2:{ rewrite (O2 GE) in *. destruct d as [|y d]; auto. destruct (D2 y (or_introl eq_refl)) as [[] _]. }
  destruct (O3 LT) as [r EL].
  assert (AL : distinct_times (sort_sigs sigs)). { unfold distinct_times. eapply FOP_perm; [|apply sort_perm|exact DT]. intros a b X Y. apply X. symmetry. auto. }
  assert (ML := meters_sort _ MT).
  assert (SSL := distinct_sorted sigs DT). assert (SSW := sort_sorted sigs).
  assert (G : forall x, In x l -> start <= x).
  { intros x X. rewrite EL in X, O4. apply StronglySorted_inv in O4 as [_ O4]. rewrite Forall_forall in O4. destruct X as [<-|X]; [lra|]. specialize (O4 x X). lra. }
  assert (HIT : forall s', In s' (sort_sigs sigs) -> start < ts_time s' -> In (ts_time s') r /\ forall x, In x l -> x < ts_time s' -> np_isclose_f x (ts_time s') = false).
  { intros s' S' LS. apply (proj1 (sort_in sigs s')) in S'. split.
    - pose proof (beats_f_changes [(t0, q)] sigs others start l ltac:(discriminate) WDE B s' S' LS (EB s' S')) as X. rewrite EL in X. destruct X as [X|X]; auto. rewrite X in LS. lra.
    - destruct (init_inv1 t0 q sigs start WDE DBL) as [st [E [LA V]]]. apply (beats_f_runs _ _ _ _ _ st E) in B.
      assert (DS' : forall s, In s (sort_sigs sigs) -> is_double (ts_time s)) by (intros s1 X; apply DS; apply sort_in; auto).
      destruct (wide_sorted sigs WDE) as [W' _]. pose proof (v_ok _ _ _ V) as OK. destruct (fine_ahead _ _ W' SSL (v_fine _ _ _ V) (proj2 (proj2 OK)) (v_none _ _ _ V)) as [_ AH].
      apply (runsf_not_close (sort_sigs sigs) q _ Q0 ML DS' st l B V).
      + intros s2 I2. rewrite LA. pose proof (ahead_after _ _ (proj2 (proj2 OK)) I2) as L2. rewrite LA in L2.
        assert (J2 : In s2 (sort_sigs sigs)). { pose proof (v_fine _ _ _ V) as F. unfold fine in F. unfold ahead in I2. destruct (b_sig st) as [s0|] eqn:SG; [|rewrite (v_none _ _ _ V SG) in I2; destruct I2]. destruct F as [l0 [F _]]. rewrite F. apply in_or_app. right. apply in_app_iff in I2 as [I2|I2]; [|right; auto]. destruct (b_first st && _)%bool; [|destruct I2]. destruct I2 as [<-|[]]. left. auto. }
        destruct (np_isclose_f start (ts_time s2)) eqn:Z; auto. exfalso. apply isclose_f_wide in Z. specialize (SC s2 (proj1 (sort_in sigs s2) J2) L2). rewrite Qabs_neg in Z by lra. lra.
      + apply AH; [apply sort_in; auto|rewrite LA; auto]. }
  assert (IX : forall t d0, t <= start -> d0 = O -> index_close_f l t d0 = O). { intros t d0 Ht ->. unfold index_close_f. destruct (find_close_f_early t start l Ht G (ex_intro _ r EL)) as [-> | ->]; auto. }
  assert (ID : forall d1, (forall x, In x d1 -> In x l) -> filter (fun x => Qle_bool start x) d1 = d1).
  { induction d1 as [|x d1 IH]; intro H; auto. cbn [filter]. assert (Q : Qle_bool start x = true) by (apply Qle_bool_iff, G, H; left; auto). rewrite Q. f_equal. apply IH. intros y Y. apply H. right. auto. }
  assert (CON : forall s rest, In s (mkTS 4 4 start :: sort_sigs sigs) -> ts_time s <= start -> (forall s', In s' rest -> In s' (sort_sigs sigs) /\ start < ts_time s') -> StronglySorted (fun a b => ts_time a < ts_time b) rest ->
    (forall s', In s' (sort_sigs sigs) -> start < ts_time s' -> In s' rest) -> n = per (ts_num s) -> (forall s', In s' (sort_sigs sigs) -> ts_time s' == start -> s' = s) ->
    down_spans_f l 0 s rest = Ok (bars per (sort_sigs sigs) n 0 l)).
  { intros s rest IS TS RS RSS RA NN UN. rewrite EL at 2.
    assert (NP : (0 < ts_num s)%Z) by (destruct IS as [<-|IS]; [cbn; lia|apply (ML s IS)]).
    apply (spans_f_bars per (sort_sigs sigs) l PER AL ML O4 rest [] start r s 0 n); auto.
    - intros s' S'. destruct (RS s' S') as [U V]. destruct (HIT s' U V) as [W Y]. auto.
    - intro t. cbn [bars]. destruct (find (fun s0 => Qeq_bool (ts_time s0) start) (sort_sigs sigs)) as [s1|] eqn:E; auto. apply find_some in E as [E1 E2]. apply Qeq_bool_iff in E2. rewrite (UN s1 E1 E2). rewrite NN. auto. }
  unfold downbeats_of_f in D1. cbv zeta in D1.
  assert (P4 : per 4%Z = 4%nat). { apply (per_unique 4); [lia|apply PER; lia|]. split; [intros [[k K] _]; lia|auto]. }
  destruct (sort_sigs sigs) as [|s0 ss] eqn:ES.
  - rewrite (CON (mkTS 4 4 start) []) in D1; auto; cbn; try lra; try (intros ? []); try constructor; auto.
    { cbn [bind] in D1. rewrite ID in D1 by (intros x X; eapply bars_incl; eauto). congruence. }
    rewrite P4. apply N2. intros s X. apply (proj2 (sort_in sigs s)) in X. rewrite ES in X. destruct X.
  - assert (SI := sort_in sigs). rewrite ES in SI.
    destruct (Qltb start (ts_time s0)) eqn:C.
    + apply Qltb_lt in C. assert (ALL : forall s, In s (s0 :: ss) -> start < ts_time s). { intros s [<-|X]; auto. apply SSQ_cons in SSW as [SSW _]. specialize (SSW s X). lra. }
      rewrite (CON (mkTS 4 4 start) (s0 :: ss)) in D1; auto.
      * cbn [bind] in D1. rewrite ID in D1 by (intros x X; eapply bars_incl; eauto). congruence.
      * left. auto. * cbn. lra. * cbn. rewrite P4. apply N2. intros s X. apply ALL. apply SI. auto.
      * intros s' S' E. specialize (ALL s' S'). lra.
    + apply Qltb_ge in C. destruct (spans_f_strip l start G (ex_intro _ r EL) ss s0 ML SSW C) as [l1 [s1 [r1 [A1 [A2 [A3 A4]]]]]]. rewrite A4 in D1.
      assert (SPL : forall x, In x (s0 :: ss) -> x = s1 \/ In x r1 \/ ts_time x < ts_time s1).
      { intros x X. rewrite A1 in X. apply in_app_iff in X as [X|[X|X]]; auto. right. right. rewrite A1 in SSL. clear - X SSL. induction l1 as [|a l1 IH]; [destruct X|]. cbn in SSL. apply StronglySorted_inv in SSL as [S1 S2]. rewrite Forall_forall in S2. destruct X as [<-|X]; [apply S2; apply in_app_iff; right; left; auto|auto]. }
      assert (IN1 : In s1 (s0 :: ss)) by (rewrite A1; apply in_app_iff; right; left; auto).
      rewrite (CON s1 r1) in D1; auto.
      * cbn [bind] in D1. rewrite ID in D1 by (intros x X; eapply bars_incl; eauto). congruence.
      * right. auto.
      * intros s' S'. split; auto. rewrite A1. apply in_app_iff. right. right. auto.
      * rewrite A1 in SSL. clear - SSL. induction l1 as [|a l1 IH]; cbn in SSL; apply StronglySorted_inv in SSL as [S1 S2]; auto.
      * intros s' S' L'. destruct (SPL s' S') as [->|[X|X]]; auto; lra.
      * apply N1; auto. split; [apply SI; auto|]. left. split; auto. intros s' S' L'. apply SI in S'. destruct (SPL s' S') as [->|[X|X]]; try lra. specialize (A3 s' X). lra.
      * intros s' S' E. destruct (SPL s' S') as [->|[X|X]]; auto; [specialize (A3 s' X); lra|lra].
Qed.
