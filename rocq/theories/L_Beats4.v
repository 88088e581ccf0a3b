(** Lemmas about M_Beats: signature changes and downbeats. *)
From Coq Require Import Sorted Permutation Lia Lqa Qfield.
From Verif Require Import PyBase M_Beats S_Beats L_Base L_Beats L_Beats2 L_Beats3.
Open Scope Q_scope.

Lemma apart_app : forall l m, apart (l ++ m) -> apart m /\ forall a b, In a l -> In b m -> ~ close (ts_time a) (ts_time b) /\ ~ close (ts_time b) (ts_time a).
Proof.
  induction l as [|x l IH]; intros m A; cbn in A; [split; auto; intros a b []|]. inversion A as [|? ? A1 A2]; subst. destruct (IH m A2) as [B1 B2]. split; auto. rewrite Forall_forall in A1.
  intros a b [<-|X] Y; [apply A1; apply in_app_iff; auto|auto].
Qed.
(** The signatures still ahead of the state. *)
Definition pending (st : bstate) (s : tsig) : Prop :=
  In s (b_sigs st) \/ (b_sig st = Some s /\ b_first st = true /\ b_last st < ts_time s).
Lemma pending_next : forall st, binv st -> apart (sig_list (b_sig st) ++ b_sigs st) -> apart (sig_list (b_sig (next_beat st)) ++ b_sigs (next_beat st)) /\
  forall s, pending st s -> pending (next_beat st) s \/ b_last (next_beat st) = ts_time s.
Proof.
  intros st I A. destruct (next_spec st I) as [nb [I' [K [L _]]]]. destruct K as [K1 K2 K3 K4 K5|s0 K1 K2 K3 K4 K5 K6 K7 K8|s0 nb2 K1 K2 K3 K4 K5 K6 K7].
  - rewrite K2, K3. split; auto. intros s [P|[P1 [P2 P3]]]; left; unfold pending; rewrite K3, K2, K4, K1; auto. right. split; auto. split; auto. apply (K5 s P1 P2 P3).
  - rewrite K6, K7. split; auto. intros s [P|[P1 [P2 P3]]].
    + left. left. rewrite K7. auto.
    + right. rewrite K1 in P1. injection P1 as <-. auto.
  - rewrite K6. cbn [sig_list app]. rewrite K1 in A. destruct (apart_app _ _ A) as [A1 A2]. split; auto. intros s [P|[P1 [P2 P3]]].
    + rewrite K1 in P. destruct P as [<-|P]; auto. left. left. auto.
    + exfalso. destruct (A2 s s0) as [N1 N2]; [rewrite P1; left; auto|left; auto|].
      assert (OR : ts_time s <= ts_time s0). { pose proof (bi_sigs st I) as SS. rewrite P1, K1 in SS. cbn in SS. apply SSQ_cons in SS as [SS _]. apply SS. left. auto. }
      assert (SE : gt_or_close (ts_time s) (ts_time s0) = true -> False).
      { intro G. apply gtc_true in G as [G|[_ G]]; auto. assert (E : ts_time s == ts_time s0) by lra. apply N1. unfold close. destruct (Qabsb_cases (ts_time s - ts_time s0)) as [[U ->]|[U ->]]; destruct (Qabsb_cases (ts_time s0)) as [[V ->]|[V ->]]; lra. }
      destruct K3 as [->|[s2 [M1 [M2 [M3 [M4 M5]]]]]].
      * destruct (K4 eq_refl s P1 P2 P3) as [[X Y]| ->]; auto. apply gtc_true in K2 as [K2|[K2 K2']]; [lra|].
        destruct (Qlt_le_dec (ts_time s) (ts_time s0)) as [Z|Z]; [|apply SE; unfold gt_or_close; apply orb_true_iff; right; apply close_spec; unfold close; destruct (Qabsb_cases (ts_time s - ts_time s0)) as [[U ->]|[U ->]]; destruct (Qabsb_cases (ts_time s0)) as [[V ->]|[V ->]]; lra].
        apply N1. eapply close_between; [exact K2'| |auto]. lra.
      * rewrite P1 in M1. injection M1 as <-. subst nb2. auto.
Qed.
Lemma sigs_hit : forall stop st l, runs stop st l -> binv st -> apart (sig_list (b_sig st) ++ b_sigs st) ->
  forall s, pending st s -> ts_time s < stop -> In (ts_time s) l.
Proof.
  intros stop st l R. induction R as [st H|st l H R IH]; intros I A s P T.
  - destruct P as [P|[_ [_ P]]]; [pose proof (bi_ahead st I s P)|]; lra.
  - destruct (next_spec st I) as [_ [I' _]]. destruct (pending_next st I A) as [A' PN]. right. destruct (PN s P) as [X|X]; auto. destruct (runs_order _ _ _ R I') as [_ [_ HD]]. rewrite X in HD. destruct (HD T) as [r ->]. left. auto.
Qed.
(** No beat lies a little before a signature change. *)
Lemma not_close_before : forall st, binv st -> apart (sig_list (b_sig st) ++ b_sigs st) -> forall s, pending (next_beat st) s -> b_last (next_beat st) < ts_time s -> ~ close (b_last (next_beat st)) (ts_time s).
Proof.
  intros st I A s P LT C. destruct (pending_next st I A) as [A' _]. destruct (next_spec st I) as [nb [I' [K [L [_ [_ [_ [_ [_ [_ HD]]]]]]]]]].
  assert (TAIL : b_sigs (next_beat st) = b_sigs st -> In s (b_sigs st) -> False).
  { intros E IN. destruct (b_sigs (next_beat st)) as [|s1 r] eqn:ES; [rewrite <- E in IN; destruct IN|]. destruct (HD s1 r eq_refl E) as [X Y]. rewrite <- E in IN. destruct IN as [<-|IN]; auto.
    (* s1 before s: closeness passes to s1 *)
    pose proof (bi_sigs _ I') as SS. rewrite ES in SS. apply SSQ_tail in SS. apply SSQ_cons in SS as [SS _]. specialize (SS s IN).
    destruct (apart_app _ _ A') as [A1 _]. inversion A1 as [|? ? A2 A3]; subst. rewrite Forall_forall in A2. destruct (A2 s IN) as [N1 N2].
    destruct (Qlt_le_dec (ts_time s1) (ts_time s)) as [Z|Z].
    - apply N1. eapply close_between; [exact C| |auto]. lra.
    - apply N1. unfold close. destruct (Qabsb_cases (ts_time s1 - ts_time s)) as [[U ->]|[U ->]]; destruct (Qabsb_cases (ts_time s)) as [[V ->]|[V ->]]; lra. }
  destruct K as [K1 K2 K3 K4 K5|s0 K1 K2 K3 K4 K5 K6 K7 K8|s0 nb2 K1 K2 K3 K4 K5 K6 K7].
  - destruct P as [P|[P1 [P2 P3]]]; [apply TAIL; auto; rewrite <- K3; auto|]. rewrite K2 in P1. rewrite K4 in P2. destruct (K5 s P1 P2) as [_ N]; [|apply N; rewrite <- K1; auto]. rewrite K1 in P3. lra.
  - destruct P as [P|[P1 [P2 P3]]]; [apply TAIL; auto; rewrite <- K7; auto|]. rewrite K6, K1 in P1. injection P1 as <-. rewrite K5 in LT. lra.
  - rewrite K5 in C. destruct P as [P|[P1 [P2 P3]]]; [|congruence]. rewrite K6 in A'. cbn in A'. inversion A' as [|? ? A1 A2]; subst. rewrite Forall_forall in A1. destruct (A1 s P). auto.
Qed.
Lemma runs_not_close : forall stop st l, runs stop st l -> binv st -> apart (sig_list (b_sig st) ++ b_sigs st) -> (forall s, pending st s -> b_last st < ts_time s -> ~ close (b_last st) (ts_time s)) ->
  forall s x, pending st s -> In x l -> x < ts_time s -> ~ close x (ts_time s).
Proof.
  intros stop st l R. induction R as [st H|st l H R IH]; intros I A NC s x P X LT; [destruct X|]. destruct X as [<-|X]; auto.
  destruct (next_spec st I) as [_ [I' _]]. destruct (pending_next st I A) as [A' PN].
  assert (NC' : forall s, pending (next_beat st) s -> b_last (next_beat st) < ts_time s -> ~ close (b_last (next_beat st)) (ts_time s)) by (intros; apply not_close_before; auto).
  destruct (PN s P) as [Y|Y]; [eapply IH; eauto|]. destruct (runs_order _ _ _ R I') as [_ [B _]]. specialize (B x X). rewrite Y in B. lra.
Qed.
Lemma pending_init : forall all st s, fine all st -> In s all -> b_last st < ts_time s -> StronglySorted (fun a b => ts_time a <= ts_time b) all -> pending st s.
Proof.
  intros all st s F IN LT SS. unfold fine in F. destruct (b_sig st) as [s1|] eqn:E; [|subst all; destruct IN]. destruct F as [l [F1 [F2 F3]]]. unfold pending. rewrite E.
  assert (LS : forall x, In x l -> ts_time x <= ts_time s1).
  { clear - SS F1. subst all. induction l as [|a l IH]; cbn in SS; intros x X; [destruct X|]. apply SSQ_cons in SS as [SA SB]. destruct X as [<-|X]; [apply SA; apply in_app_iff; right; left; auto|auto]. }
  rewrite F1 in IN. apply in_app_iff in IN as [X|[<-|X]]; auto.
  - destruct (b_first st) eqn:EF; [rewrite (F2 eq_refl) in X; destruct X|]. specialize (F3 eq_refl). specialize (LS s X). lra.
  - destruct (b_first st) eqn:EF; auto. specialize (F3 eq_refl). lra.
Qed.
Lemma apart_sym_sort : forall sigs, apart sigs -> apart (sort_sigs sigs).
Proof. intros sigs A. unfold apart. eapply FOP_perm; [|apply sort_perm|exact A]. intros a b [N1 N2]. auto. Qed.
Lemma apart_state : forall all st, apart all -> fine all st -> (b_sig st = None -> b_sigs st = []) -> apart (sig_list (b_sig st) ++ b_sigs st).
Proof. intros all st A F N. unfold fine in F. destruct (b_sig st) as [s|]; [|rewrite N; auto; constructor]. destruct F as [l [-> _]]. apply apart_app in A as [A _]. auto. Qed.

Lemma C123b : forall m sigs others start l, tempo_map m -> meters sigs -> clear_of_tempo m sigs -> apart sigs -> beats_are m sigs others start l ->
  forall s, In s sigs -> start < ts_time s -> ts_time s < piece_end m (sort_sigs sigs) others -> In (ts_time s) l.
Proof.
  intros m sigs others start l TM MT CL AP B s IN L1 L2. destruct (beats_runs _ _ _ _ _ TM MT CL B) as [st [E R]]. destruct (init_spec _ sigs start TM MT CL) as [st' [E' [I [LA [FI _]]]]]. assert (st' = st) by congruence. subst st'.
  eapply sigs_hit; eauto; [apply (apart_state (sort_sigs sigs)); auto; [apply apart_sym_sort; auto|apply (bi_none st I)]|]. eapply pending_init; eauto; [apply sort_in; auto|rewrite LA; auto|apply sort_sorted].
Qed.

(** ** downbeats *)
Lemma every_incl : forall n a k x, In x (every_from n k a) -> In x a.
Proof. intros n. induction a as [|y a IH]; intros k x H; cbn in H; [destruct H|]. destruct k; [destruct H as [<-|H]; [left; auto|]|]; right; eapply IH; eauto. Qed.
Lemma slice_incl : forall a i j x, In x (slice a i j) -> In x a.
Proof. intros a i j x H. unfold slice in H. assert (H' : In x (skipn i a)) by (rewrite <- (firstn_skipn (j - i) (skipn i a)); apply in_app_iff; auto). rewrite <- (firstn_skipn i a). apply in_app_iff. auto. Qed.
Lemma skipn_incl : forall (a : list Q) i x, In x (skipn i a) -> In x a.
Proof. intros a i x H. rewrite <- (firstn_skipn i a). apply in_app_iff. auto. Qed.
Lemma bar_step_spec : forall num, (0 < num)%Z -> beats_per_bar num (bar_step num) /\ (0 < bar_step num)%nat.
Proof.
  intros num P. unfold bar_step, beats_per_bar, compound. destruct (Z.eqb_spec (num mod 3) 0) as [M|M]; destruct (Z.eqb_spec num 3) as [E|E]; cbn [andb negb].
  - subst num. split; [split; [intros [_ N]; exfalso; auto|intros _; reflexivity]|]. cbn. lia.
  - pose proof (Z_div_mod_eq_full num 3) as D. assert (0 < num / 3)%Z by lia. split; [split; [intros _; rewrite Z2Nat.id; lia|intro N; exfalso; apply N; split; auto; exists (num / 3)%Z; lia]|lia].
  - subst. exfalso. apply M. reflexivity.
  - split; [split; [intros [[k K] _]; exfalso; apply M; rewrite K, Z.mul_comm; apply Z_mod_mult|intros _; rewrite Z2Nat.id; lia]|lia].
Qed.
Lemma per_unique : forall num n n', (0 < num)%Z -> beats_per_bar num n -> beats_per_bar num n' -> n = n'.
Proof.
  intros num n n' P [A1 A2] [B1 B2]. destruct (bar_step_spec num P) as [[C1 C2] _].
  assert (D : compound num \/ ~ compound num).
  { unfold compound. destruct (Z.eq_dec (num mod 3) 0) as [M|M]; destruct (Z.eq_dec num 3) as [E|E].
    - right. intros [_ N]. auto. - left. split; auto. exists (num / 3)%Z. pose proof (Z_div_mod_eq_full num 3). lia.
    - right. intros [_ N]. auto. - right. intros [[k K] _]. apply M. rewrite K, Z.mul_comm. apply Z_mod_mult. }
  destruct D as [D|D]; [specialize (A1 D); specialize (B1 D)|specialize (A2 D); specialize (B2 D)]; lia.
Qed.
Lemma stride_ok : forall num a, (0 < num)%Z -> stride num a = Ok (every (bar_step num) a).
Proof. intros num a P. unfold stride. destruct (bar_step_spec num P) as [_ B]. destruct (bar_step num); [lia|auto]. Qed.
Lemma spans_ok : forall beats rest e s, meters (s :: rest) -> exists d, down_spans beats e s rest = Ok d /\ forall x, In x d -> In x beats.
Proof.
  intros beats. induction rest as [|s' r IH]; intros e s M; cbn [down_spans].
  - rewrite stride_ok by (apply (M s); left; auto). eexists. split; [reflexivity|]. intros x X. eapply skipn_incl, every_incl, X.
  - rewrite stride_ok by (apply (M s); left; auto). cbn [bind]. destruct (IH (index_close beats (ts_time s') (index_close beats (ts_time s) 0)) s') as [d [-> D]]; [intros y Y; apply M; right; auto|]. cbn [bind]. eexists. split; [reflexivity|].
    intros x X. apply in_app_iff in X as [X|X]; auto. eapply slice_incl, every_incl, X.
Qed.
Lemma downbeats_ok : forall beats sigs start, meters sigs -> exists d, downbeats_of beats sigs start = Ok d /\ forall x, In x d -> In x beats /\ start <= x.
Proof.
  intros beats sigs start M. unfold downbeats_of. cbv zeta.
  assert (A : exists d, match sigs with [] => down_spans beats 0 (mkTS 4 4 start) [] | s :: r => if Qltb start (ts_time s) then down_spans beats 0 (mkTS 4 4 start) (s :: r) else down_spans beats 0 s r end = Ok d /\ forall x, In x d -> In x beats).
  { destruct sigs as [|s r]; [|destruct (Qltb start (ts_time s))]; apply spans_ok; auto; intros x [<-|X]; cbn; auto; try lia; destruct X. }
  destruct A as [d [-> D]]. cbn [bind]. eexists. split; [reflexivity|]. intros x X. apply filter_In in X as [X1 X2]. split; auto. apply Qle_bool_iff. auto.
Qed.
Lemma meters_sort : forall sigs, meters sigs -> meters (sort_sigs sigs).
Proof. intros sigs M s I. apply M. apply sort_in. auto. Qed.
Lemma down_are : forall m sigs others start l d, beats_are m sigs others start l -> downbeats_of l (sort_sigs sigs) start = Ok d -> downbeats_are m sigs others start d.
Proof. intros m sigs others start l d [N B] D. exists N. intros fuel F. unfold get_downbeats. rewrite (B fuel F). cbn [bind]. rewrite D. auto. Qed.
Lemma C124a : forall m sigs others start l, meters sigs -> beats_are m sigs others start l -> exists d, downbeats_are m sigs others start d /\ forall x, In x d -> In x l /\ start <= x.
Proof. intros m sigs others start l M B. destruct (downbeats_ok l (sort_sigs sigs) start (meters_sort _ M)) as [d [D1 D2]]. exists d. split; auto. eapply down_are; eauto. Qed.

(** the position of a signature change among the beats *)
Lemma find_close_at : forall t l1 l2, (forall x, In x l1 -> ~ close x t) -> find_close (l1 ++ t :: l2) t = Some (List.length l1).
Proof.
  intros t. induction l1 as [|x l1 IH]; intros l2 N; cbn [app find_close List.length].
  - assert (C : np_isclose t t = true) by (apply close_spec, close_self). rewrite C. auto.
  - destruct (np_isclose x t) eqn:C; [exfalso; apply (N x); [left; auto|apply close_spec; auto]|]. rewrite IH; auto. intros y Y. apply N. right. auto.
Qed.
(** a signature at or before the start: index 0 either way *)
Lemma find_close_early : forall t start l, t <= start -> (forall x, In x l -> start <= x) -> (exists r, l = start :: r) -> find_close l t = Some O \/ find_close l t = None.
Proof.
  intros t start l T G [r ->]. cbn [find_close]. destruct (np_isclose start t) eqn:C; auto. right.
  assert (N : ~ close start t) by (intro X; apply close_spec in X; congruence).
  assert (A : forall x, In x r -> ~ close x t). { intros x X Y. apply N. assert (start <= x) by (apply G; right; auto). unfold close in *. destruct (Qabsb_cases (x - t)) as [[U EU]|[U EU]]; rewrite EU in Y; destruct (Qabsb_cases (start - t)) as [[V EV]|[V EV]]; rewrite EV; lra. }
  clear - A. induction r as [|x r IH]; auto. cbn [find_close]. destruct (np_isclose x t) eqn:C; [exfalso; apply (A x); [left; auto|apply close_spec; auto]|]. cbn in IH. destruct (find_close r t); auto.
  cbn in *. assert (X : option_map S (Some n) = None) by (apply IH; intros; apply A; right; auto). discriminate.
Qed.
Lemma bars_plain : forall per sigs seg n k r, (forall x s, In x seg -> In s sigs -> ~ ts_time s == x) ->
  exists k', bars per sigs n k (seg ++ r) = every_from n k seg ++ bars per sigs n k' r.
Proof.
  intros per sigs. induction seg as [|x seg IH]; intros n k r N; cbn [app bars every_from].
  - exists k. auto.
  - assert (F : find (fun s => Qeq_bool (ts_time s) x) sigs = None).
    { destruct (find (fun s => Qeq_bool (ts_time s) x) sigs) as [s|] eqn:E; auto. apply find_some in E as [E1 E2]. apply Qeq_bool_iff in E2. exfalso. apply (N x s); auto. left. auto. }
    rewrite F. assert (N' : forall y s, In y seg -> In s sigs -> ~ ts_time s == y) by (intros; apply N; auto; right; auto). destruct k as [|k]; [destruct (IH n (n - 1)%nat r N') as [k' ->]|destruct (IH n k r N') as [k' ->]]; exists k'; auto.
Qed.
Lemma bars_sig : forall per sigs s n k r, distinct_times sigs -> In s sigs -> bars per sigs n k (ts_time s :: r) = bars per sigs (per (ts_num s)) 0 (ts_time s :: r).
Proof.
  intros per sigs s n k r D IN. cbn [bars]. destruct (find (fun s0 => Qeq_bool (ts_time s0) (ts_time s)) sigs) as [s1|] eqn:E; auto. exfalso. eapply find_none in E; eauto. cbn in E. assert (X : Qeq_bool (ts_time s) (ts_time s) = true) by (apply Qeq_bool_iff; reflexivity). congruence.
Qed.
Lemma every_bars_head : forall per sigs s n seg r, distinct_times sigs -> In s sigs -> n = per (ts_num s) ->
  (forall x s', In x seg -> In s' sigs -> ~ ts_time s' == x) ->
  exists k', bars per sigs n 0 (ts_time s :: seg ++ r) = every_from n 0 (ts_time s :: seg) ++ bars per sigs n k' r.
Proof.
  intros per sigs s n seg r D IN -> N. cbn [bars every_from]. destruct (find (fun s0 => Qeq_bool (ts_time s0) (ts_time s)) sigs) as [s1|] eqn:E.
  - apply find_some in E as [E1 E2]. apply Qeq_bool_iff in E2. assert (s1 = s) by (eapply distinct_same; eauto). subst s1. destruct (bars_plain per sigs seg (per (ts_num s)) (per (ts_num s) - 1) r N) as [k' ->]. exists k'. auto.
  - destruct (bars_plain per sigs seg (per (ts_num s)) (per (ts_num s) - 1) r N) as [k' ->]. exists k'. auto.
Qed.
Lemma SQ_app : forall l m, StronglySorted Qlt (l ++ m) -> StronglySorted Qlt m /\ forall a b, In a l -> In b m -> a < b.
Proof.
  induction l as [|x l IH]; intros m A; cbn in A; [split; auto; intros a b []|]. apply StronglySorted_inv in A as [A1 A2]. rewrite Forall_forall in A2. destruct (IH m A1) as [B1 B2]. split; auto.
  intros a b [<-|X] Y; [apply A2; apply in_app_iff; auto|auto].
Qed.
Lemma bars_nil : forall per sigs n k, bars per sigs n k [] = [].
Proof. reflexivity. Qed.
Lemma spans_bars : forall per all l, (forall num, (0 < num)%Z -> beats_per_bar num (per num)) -> distinct_times all -> meters all -> StronglySorted Qlt l ->
  forall rest pre x0 seg s e n, l = pre ++ x0 :: seg -> index_close l (ts_time s) 0 = List.length pre -> index_close l (ts_time s) e = List.length pre ->
  StronglySorted (fun a b => ts_time a < ts_time b) rest ->
  (forall s', In s' rest -> In (ts_time s') seg /\ In s' all /\ forall x, In x l -> x < ts_time s' -> ~ close x (ts_time s')) ->
  (forall s', In s' all -> x0 < ts_time s' -> In s' rest) ->
  (forall t, bars per all n 0 (x0 :: t) = x0 :: bars per all n (n - 1) t) -> n = per (ts_num s) -> (0 < ts_num s)%Z ->
  down_spans l e s rest = Ok (bars per all n 0 (x0 :: seg)).
Proof.
  intros per all l PER DT MT SL. induction rest as [|s' r IH]; intros pre x0 seg s e n EL I1 I2 SR HR HA HX HN NP; cbn [down_spans].
  - assert (BS : n = bar_step (ts_num s)). { rewrite HN. eapply per_unique; [exact NP| |apply bar_step_spec; auto]. auto. }
    rewrite I2. rewrite stride_ok by auto. rewrite <- BS. f_equal. rewrite EL, skipn_app, skipn_all, Nat.sub_diag. cbn [skipn app]. rewrite HX. unfold every. cbn [every_from]. f_equal.
    destruct (bars_plain per all seg n (n - 1)%nat []) as [k' K].
    { intros x y X Y E. rewrite EL in SL. apply SQ_app in SL as [SL _]. apply StronglySorted_inv in SL as [_ SL]. rewrite Forall_forall in SL. specialize (SL x X). assert (LT : x0 < ts_time y) by lra. destruct (HA y Y LT). }
    rewrite app_nil_r, bars_nil, app_nil_r in K. auto.
  - assert (BS : n = bar_step (ts_num s)). { rewrite HN. eapply per_unique; [exact NP| |apply bar_step_spec; auto]. auto. }
    destruct (HR s' (or_introl eq_refl)) as [H1 [H2 H3]]. apply in_split in H1 as [seg1 [seg2 ES]].
    assert (EL2 : l = (pre ++ x0 :: seg1) ++ ts_time s' :: seg2) by (rewrite EL, ES, <- app_assoc; auto).
    assert (SL2 := SL). rewrite EL2 in SL2. apply SQ_app in SL2 as [SL3 SL4].
    assert (FC : find_close l (ts_time s') = Some (List.length (pre ++ x0 :: seg1))).
    { rewrite EL2. apply find_close_at. intros x X. apply H3; [rewrite EL2; apply in_app_iff; auto|]. apply SL4; auto. left. auto. }
    rewrite I1. rewrite stride_ok by auto. rewrite <- BS. cbn [bind].
    assert (IC : forall d, index_close l (ts_time s') d = List.length (pre ++ x0 :: seg1)) by (intro d; unfold index_close; rewrite FC; auto). rewrite IC.
    apply StronglySorted_inv in SR as [SR1 SR2]. rewrite Forall_forall in SR2.
    rewrite (IH (pre ++ x0 :: seg1) (ts_time s') seg2 s' _ (per (ts_num s'))); auto.
    + cbn [bind]. f_equal. unfold slice. rewrite EL2. rewrite <- app_assoc. rewrite skipn_app, skipn_all, Nat.sub_diag. cbn [skipn app]. rewrite app_length. cbn [List.length].
      replace (List.length pre + S (List.length seg1) - List.length pre)%nat with (S (List.length seg1)) by lia. cbn [firstn]. rewrite firstn_app, firstn_all, Nat.sub_diag. cbn [firstn]. rewrite app_nil_r.
      unfold every. cbn [every_from app]. rewrite ES. rewrite HX. f_equal.
      destruct (bars_plain per all seg1 n (n - 1)%nat (ts_time s' :: seg2)) as [k' ->].
      { intros x y X Y E. assert (LX : x0 < x). { assert (Q := SL). rewrite EL in Q. apply SQ_app in Q as [Q _]. apply StronglySorted_inv in Q as [_ Q]. rewrite Forall_forall in Q. apply Q. rewrite ES. apply in_app_iff. auto. }
        assert (LY : x < ts_time s') by (apply SL4; [apply in_app_iff; right; right; auto|left; auto]). assert (LT : x0 < ts_time y) by lra. destruct (HA y Y LT) as [<-|Z]; [lra|]. specialize (SR2 y Z). lra. }
      f_equal. symmetry. apply bars_sig; auto.
    + intros s2 S2. destruct (HR s2 (or_intror S2)) as [J1 [J2 J3]]. split; [|split; auto]. specialize (SR2 s2 S2). rewrite ES in J1. apply in_app_iff in J1 as [J1|[J1|J1]]; auto.
      * assert (ts_time s2 < ts_time s') by (apply SL4; [apply in_app_iff; right; right; auto|left; auto]). lra.
      * rewrite J1 in SR2. lra.
    + intros s2 S2 L2. assert (LT : x0 < ts_time s2). { assert (x0 < ts_time s') by (apply SL4; [apply in_app_iff; right; left; auto|left; auto]). lra. }
      destruct (HA s2 S2 LT) as [<-|Z]; auto. lra.
    + intros t. cbn [bars]. destruct (find (fun s0 => Qeq_bool (ts_time s0) (ts_time s')) all) as [s1|] eqn:E; auto.
      apply find_some in E as [E1 E2]. apply Qeq_bool_iff in E2. assert (s1 = s') by (apply (distinct_same all); auto). subst s1. auto.
    + apply (MT s' H2).
Qed.
Lemma spans_strip : forall l start, (forall x, In x l -> start <= x) -> (exists r, l = start :: r) ->
  forall rest s, meters (s :: rest) -> StronglySorted (fun a b => ts_time a <= ts_time b) (s :: rest) -> ts_time s <= start ->
  exists l1 s1 r1, s :: rest = l1 ++ s1 :: r1 /\ ts_time s1 <= start /\ (forall x, In x r1 -> start < ts_time x) /\ down_spans l 0 s rest = down_spans l 0 s1 r1.
Proof.
  intros l start G HD. induction rest as [|s' r IH]; intros s MT SS T.
  - exists [], s, []. split; auto. split; auto. split; auto. intros x [].
  - apply SSQ_cons in SS as [SS1 SS2]. destruct (Qlt_le_dec start (ts_time s')) as [C|C].
    + exists [], s, (s' :: r). split; auto. split; auto. split; auto. intros x [<-|X]; auto. apply SSQ_cons in SS2 as [SS2 _]. specialize (SS2 x X). lra.
    + destruct (IH s') as [l1 [s1 [r1 [A1 [A2 [A3 A4]]]]]]; auto. { intros x X. apply MT. right. auto. } exists (s :: l1), s1, r1. split; [rewrite A1; auto|]. split; auto. split; auto.
      rewrite <- A4. cbn [down_spans].
      assert (Z : forall t, t <= start -> index_close l t 0 = O). { intros t Ht. unfold index_close. destruct (find_close_early t start l Ht G HD) as [-> | ->]; auto. }
      rewrite !Z by auto. rewrite stride_ok by (apply MT; left; auto). cbn [bind]. unfold slice. cbn [Nat.sub firstn]. unfold every. cbn [every_from]. destruct (down_spans l 0 s' r); auto.
Qed.
Lemma find_perm : forall (f : tsig -> bool) l l', (forall a b, In a l -> In b l -> f a = true -> f b = true -> a = b) -> Permutation l l' -> find f l = find f l'.
Proof.
  intros f l l' U P. destruct (find f l) as [a|] eqn:E.
  - apply find_some in E as [E1 E2]. destruct (find f l') as [b|] eqn:E'.
    + apply find_some in E' as [E3 E4]. f_equal. apply U; auto. eapply Permutation_in; [symmetry; exact P|auto].
    + exfalso. eapply find_none in E'; [|eapply Permutation_in; eauto]. congruence.
  - destruct (find f l') as [b|] eqn:E'; auto. apply find_some in E' as [E3 E4]. exfalso. eapply find_none in E; [|eapply Permutation_in; [symmetry; exact P|exact E3]]. congruence.
Qed.
Lemma bars_perm : forall per sigs sigs' l n k, distinct_times sigs -> Permutation sigs sigs' -> bars per sigs n k l = bars per sigs' n k l.
Proof.
  intros per sigs sigs' l. induction l as [|x l IH]; intros n k D P; cbn [bars]; auto.
  rewrite (find_perm (fun s => Qeq_bool (ts_time s) x) sigs sigs'); auto.
  - destruct (find _ sigs') as [s|]; [rewrite IH; auto|]. destruct k; rewrite IH; auto.
  - intros a b A B EA EB. apply Qeq_bool_iff in EA. apply Qeq_bool_iff in EB. apply (distinct_same sigs); auto. rewrite EA, EB. reflexivity.
Qed.

Lemma bars_incl : forall per sigs l n0 k x, In x (bars per sigs n0 k l) -> In x l.
Proof.
  intros per sigs. induction l as [|y l IH]; intros n0 k x X; cbn [bars] in X; [destruct X|]. destruct (find _ _) as [s|]; [destruct X as [<-|X]; [left; auto|right; eapply IH; eauto]|]. destruct k; [destruct X as [<-|X]; [left; auto|]|]; right; eapply IH; eauto.
Qed.
Lemma C124b : forall m sigs others start l d per n, tempo_map m -> meters sigs -> clear_of_tempo m sigs -> apart sigs ->
  (forall s, In s sigs -> start < ts_time s -> ~ close start (ts_time s)) ->
  (forall s, In s sigs -> ts_time s < piece_end m (sort_sigs sigs) others) ->
  (forall num, (0 < num)%Z -> beats_per_bar num (per num)) ->
  (forall s, in_force sigs s start -> ts_time s <= start -> n = per (ts_num s)) -> ((forall s, In s sigs -> start < ts_time s) -> n = 4%nat) ->
  beats_are m sigs others start l -> downbeats_are m sigs others start d -> d = bars per sigs n 0 l.
Proof.
  intros m sigs others start l d per n TM MT CL AP SC EB PER N1 N2 B DB.
  assert (DT := apart_distinct sigs AP). rewrite (bars_perm per sigs (sort_sigs sigs)) by (auto using sort_perm).
  destruct (C121a m sigs others start TM MT CL) as [l' [B' [O1 [O2 [O3 O4]]]]]. assert (l' = l) by (eapply beats_unique; eauto). subst l'. specialize (O4 DT).
  destruct (downbeats_ok l (sort_sigs sigs) start (meters_sort _ MT)) as [d0 [D1 D2]].
  assert (d = d0). { pose proof (down_are _ _ _ _ _ _ B D1) as [M1 X1]. destruct DB as [M2 X2]. specialize (X1 (M1 + M2)%nat ltac:(lia)). specialize (X2 (M1 + M2)%nat ltac:(lia)). congruence. } subst d0.
  destruct (Qlt_le_dec start (piece_end m (sort_sigs sigs) others)) as [LT|GE].
  2:{ destruct l as [|x l]; [|destruct (O2 x (or_introl eq_refl)); lra]. destruct d as [|y d]; auto. destruct (D2 y (or_introl eq_refl)) as [[] _]. }
  destruct (O3 LT) as [r EL].
  assert (AL : distinct_times (sort_sigs sigs)). { unfold distinct_times. eapply FOP_perm; [|apply sort_perm|exact DT]. intros a b X Y. apply X. symmetry. auto. }
  assert (ML := meters_sort _ MT).
  assert (SSL := distinct_sorted sigs DT). assert (SSW := sort_sorted sigs).
  assert (G : forall x, In x l -> start <= x) by (intros x X; apply O2; auto).
  assert (HIT : forall s', In s' (sort_sigs sigs) -> start < ts_time s' -> In (ts_time s') r /\ forall x, In x l -> x < ts_time s' -> ~ close x (ts_time s')).
  { intros s' S' LS. apply (proj1 (sort_in sigs s')) in S'. split.
    - pose proof (C123b m sigs others start l TM MT CL AP B s' S' LS (EB s' S')) as X. rewrite EL in X. destruct X as [X|X]; auto. rewrite X in LS. lra.
    - intros x X LX. destruct (beats_runs _ _ _ _ _ TM MT CL B) as [st [E R]]. destruct (init_spec _ sigs start TM MT CL) as [st' [E' [I [LA [FI [AH _]]]]]]. assert (st' = st) by congruence. subst st'.
      assert (AP' : apart (sig_list (b_sig st) ++ b_sigs st)) by (apply (apart_state (sort_sigs sigs)); auto; [apply apart_sym_sort; auto|apply (bi_none st I)]).
      eapply runs_not_close; eauto.
      + intros s2 P2 L2. rewrite LA in *. apply SC; auto. destruct P2 as [P2|[P2 _]]; unfold fine in FI.
        * destruct (b_sig st) as [s3|] eqn:E3; [|rewrite (bi_none st I E3) in P2; destruct P2]. destruct FI as [l0 [FI _]]. apply (proj1 (sort_in sigs _)). rewrite FI. apply in_app_iff. right. right. auto.
        * rewrite P2 in FI. destruct FI as [l0 [FI _]]. apply (proj1 (sort_in sigs _)). rewrite FI. apply in_app_iff. right. left. auto.
      + eapply (pending_init (sort_sigs sigs)); eauto; [apply (proj2 (sort_in sigs s')); auto|rewrite LA; auto]. }
  assert (IX : forall t d0, t <= start -> d0 = O -> index_close l t d0 = O). { intros t d0 Ht ->. unfold index_close. destruct (find_close_early t start l Ht G (ex_intro _ r EL)) as [-> | ->]; auto. }
  assert (ID : forall d1, (forall x, In x d1 -> In x l) -> filter (fun x => Qle_bool start x) d1 = d1).
  { induction d1 as [|x d1 IH]; intro H; auto. cbn [filter]. assert (Q : Qle_bool start x = true) by (apply Qle_bool_iff, G, H; left; auto). rewrite Q. f_equal. apply IH. intros y Y. apply H. right. auto. }
  assert (CON : forall s rest, In s (mkTS 4 4 start :: sort_sigs sigs) -> ts_time s <= start -> (forall s', In s' rest -> In s' (sort_sigs sigs) /\ start < ts_time s') -> StronglySorted (fun a b => ts_time a < ts_time b) rest ->
    (forall s', In s' (sort_sigs sigs) -> start < ts_time s' -> In s' rest) -> n = per (ts_num s) -> (forall s', In s' (sort_sigs sigs) -> ts_time s' == start -> s' = s) ->
    down_spans l 0 s rest = Ok (bars per (sort_sigs sigs) n 0 l)).
  { intros s rest IS TS RS RSS RA NN UN. rewrite EL at 2.
    assert (NP : (0 < ts_num s)%Z) by (destruct IS as [<-|IS]; [cbn; lia|apply (ML s IS)]).
    apply (spans_bars per (sort_sigs sigs) l PER AL ML O4 rest [] start r s 0 n); auto.
    - intros s' S'. destruct (RS s' S') as [U V]. destruct (HIT s' U V) as [W Y]. auto.
    - intro t. cbn [bars]. destruct (find (fun s0 => Qeq_bool (ts_time s0) start) (sort_sigs sigs)) as [s1|] eqn:E; auto. apply find_some in E as [E1 E2]. apply Qeq_bool_iff in E2. rewrite (UN s1 E1 E2). rewrite NN. auto. }
  unfold downbeats_of in D1. cbv zeta in D1.
  assert (P4 : per 4%Z = 4%nat). { apply (per_unique 4); [lia|apply PER; lia|]. split; [intros [[k K] _]; lia|auto]. }
  destruct (sort_sigs sigs) as [|s0 ss] eqn:ES.
  - rewrite (CON (mkTS 4 4 start) []) in D1; auto; cbn; try lra; try (intros ? []); try constructor; auto.
    { cbn [bind] in D1. rewrite ID in D1 by (intros x X; eapply bars_incl; eauto). congruence. }
    rewrite P4. apply N2. intros s X. apply (proj2 (sort_in sigs s)) in X. rewrite ES in X. destruct X.
  - assert (SI := sort_in sigs). rewrite ES in SI.
    destruct (Qltb start (ts_time s0)) eqn:C.
    + apply Qltb_lt in C. assert (ALL : forall s, In s (s0 :: ss) -> start < ts_time s). { intros s [<-|X]; auto. apply SSQ_cons in SSW as [SSW _]. specialize (SSW s X). lra. }
      rewrite (CON (mkTS 4 4 start) (s0 :: ss)) in D1; auto.
      * cbn [bind] in D1. rewrite ID in D1 by (intros x X; eapply bars_incl; eauto). congruence.
      * left. auto. * cbn. lra. * cbn. rewrite P4. apply N2. intros s X. apply ALL. apply SI. auto.
      * intros s' S' E. specialize (ALL s' S'). lra.
    + apply Qltb_ge in C. destruct (spans_strip l start G (ex_intro _ r EL) ss s0 ML SSW C) as [l1 [s1 [r1 [A1 [A2 [A3 A4]]]]]]. rewrite A4 in D1.
      assert (SPL : forall x, In x (s0 :: ss) -> x = s1 \/ In x r1 \/ ts_time x < ts_time s1).
      { intros x X. rewrite A1 in X. apply in_app_iff in X as [X|[X|X]]; auto. right. right. rewrite A1 in SSL. clear - X SSL. induction l1 as [|a l1 IH]; [destruct X|]. cbn in SSL. apply StronglySorted_inv in SSL as [S1 S2]. rewrite Forall_forall in S2. destruct X as [<-|X]; [apply S2; apply in_app_iff; right; left; auto|auto]. }
      assert (IN1 : In s1 (s0 :: ss)) by (rewrite A1; apply in_app_iff; right; left; auto).
      rewrite (CON s1 r1) in D1; auto.
      * cbn [bind] in D1. rewrite ID in D1 by (intros x X; eapply bars_incl; eauto). congruence.
      * right. auto.
      * intros s' S'. split; auto. rewrite A1. apply in_app_iff. right. right. auto.
      * rewrite A1 in SSL. clear - SSL. induction l1 as [|a l1 IH]; cbn in SSL; apply StronglySorted_inv in SSL as [S1 S2]; auto.
      * intros s' S' L'. destruct (SPL s' S') as [->|[X|X]]; auto; lra.
      * apply N1; auto. split; [apply SI; auto|]. left. split; auto. intros s' S' L'. apply SI in S'. destruct (SPL s' S') as [->|[X|X]]; try lra. specialize (A3 s' X). lra.
      * intros s' S' E. destruct (SPL s' S') as [->|[X|X]]; auto; [specialize (A3 s' X); lra|lra].
Qed.
