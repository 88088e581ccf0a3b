(** Lemmas about M_Beats: whole calls of get_beats. *)
From Coq Require Import Sorted Permutation Lia Lqa Qfield.
From Verif Require Import PyBase M_Beats S_Beats L_Base L_Beats L_Beats2.
Open Scope Q_scope.

(** ** the initial state *)
Lemma skip_tempo_spec : forall start rest q0 q r, tempi_ok q0 rest -> sortedt rest -> skip_tempo start q0 rest = (q, r) ->
  tempi_ok q r /\ sortedt r /\ later start r /\ incl r rest /\ (forall a b, start <= a -> quarters_from q0 rest a b == quarters_from q r a b).
Proof.
  intros start. induction rest as [|[t q1] r0 IH]; intros q0 q r TK ST E; cbn [skip_tempo] in E.
  - injection E as <- <-. split; auto. split; auto. split; [intros c []|]. split; [apply incl_refl|]. intros; reflexivity.
  - pose proof (StronglySorted_inv ST) as [ST1 ST2]. rewrite Forall_forall in ST2. destruct TK as [T1 T2]. destruct (Qltb t start) eqn:C.
    + apply Qltb_lt in C. destruct (IH q1 q r) as [A1 [A2 [A3 [A4 A5]]]]; auto.
      { split; [apply (T2 (t, q1)); left; auto|]. intros c I. apply T2. right. auto. }
      split; auto. split; auto. split; auto. split; [intros x X; right; auto|]. intros a b L. cbn [quarters_from]. assert (Q1 : Qle_bool t a = true) by (apply Qle_bool_iff; lra). rewrite Q1. auto.
    + apply Qltb_ge in C. injection E as <- <-. split; [split; auto|]. split; auto. split; [|split; [apply incl_refl|intros; reflexivity]].
      intros c [<-|I]; cbn [fst]; auto. specialize (ST2 c I). cbn [fst] in ST2. lra.
Qed.
Lemma skip_sigs_spec : forall start rest first s f s' r, StronglySorted (fun a b => ts_time a <= ts_time b) (s :: rest) -> skip_sigs start first s rest = (f, (s', r)) ->
  exists l, s :: rest = l ++ s' :: r /\ (forall x, In x r -> start < ts_time x) /\ ((l = [] /\ f = first) \/ (f = false /\ ts_time s' <= start)).
Proof.
  intros start. induction rest as [|s1 rest IH]; intros first s f s' r SS E; cbn [skip_sigs] in E.
  - injection E as <- <- <-. exists []. split; auto. split; [intros x []|auto].
  - apply SSQ_cons in SS as [SS1 SS2]. destruct (Qle_bool (ts_time s1) start) eqn:C.
    + apply Qle_bool_iff in C. destruct (IH false s1 f s' r SS2 E) as [l [A1 [A2 A3]]]. exists (s :: l). split; [rewrite A1; auto|]. split; auto. right. destruct A3 as [[-> ->]|A3]; auto.
      split; auto. cbn in A1. injection A1 as -> ->. auto.
    + apply Qle_bool_false in C. injection E as <- <- <-. exists []. split; auto. split; auto.
      intros x [<-|X]; auto. apply SSQ_cons in SS2 as [SS2 _]. specialize (SS2 x X). lra.
Qed.
Lemma sort_perm : forall sigs, Permutation sigs (sort_sigs sigs).
Proof. intro sigs. apply py_sort_perm. Qed.
Lemma sort_sorted : forall sigs, StronglySorted (fun a b => ts_time a <= ts_time b) (sort_sigs sigs).
Proof.
  intro sigs. unfold sort_sigs. assert (H : StronglySorted (fun a b => (fun a b => Qltb (ts_time a) (ts_time b)) b a = false) (py_sort (fun a b => Qltb (ts_time a) (ts_time b)) sigs)).
  { apply py_sort_sorted; cbv beta; intros.
    - apply Qltb_lt in H. apply Qltb_ge. lra.
    - apply Qltb_ge in H. apply Qltb_ge in H0. apply Qltb_ge. lra. }
  induction H as [|a l H IH F]; constructor; auto. rewrite Forall_forall in *. intros x X. specialize (F x X). apply Qltb_ge in F. auto.
Qed.
Lemma sort_in : forall sigs s, In s (sort_sigs sigs) <-> In s sigs.
Proof. intros. split; apply Permutation_in; [symmetry|]; apply sort_perm. Qed.
Lemma FOP_perm : forall (R : tsig -> tsig -> Prop) l l', (forall a b, R a b -> R b a) -> Permutation l l' -> ForallOrdPairs R l -> ForallOrdPairs R l'.
Proof.
  intros R l l' SY P. induction P; intro F; auto.
  - inversion F; subst. constructor; auto. eapply Permutation_Forall; eauto.
  - inversion F as [|? ? F1 F2]; subst. inversion F2 as [|? ? F3 F4]; subst. inversion F1; subst. constructor; [constructor; auto|]. constructor; auto.
Qed.
Lemma FOP_sorted : forall sigs, distinct_times sigs -> StronglySorted (fun a b => ts_time a <= ts_time b) sigs -> StronglySorted (fun a b => ts_time a < ts_time b) sigs.
Proof.
  intros sigs D SS. induction SS as [|a l SS IH F]; [constructor|]. inversion D as [|? ? D1 D2]; subst. constructor; auto. rewrite Forall_forall in *. intros x X. specialize (F x X). specialize (D1 x X).
  destruct (Qlt_le_dec (ts_time a) (ts_time x)); auto. exfalso. apply D1. lra.
Qed.
Lemma distinct_sorted : forall sigs, distinct_times sigs -> StronglySorted (fun a b => ts_time a < ts_time b) (sort_sigs sigs).
Proof.
  intros sigs D. apply FOP_sorted; [|apply sort_sorted]. unfold distinct_times. eapply FOP_perm; [|apply sort_perm|exact D]. intros a b N E. apply N. symmetry. auto.
Qed.
Lemma distinct_same : forall sigs a b, distinct_times sigs -> In a sigs -> In b sigs -> ts_time a == ts_time b -> a = b.
Proof.
  induction sigs as [|s l IH]; intros a b D A B E; [destruct A|]. inversion D as [|? ? D1 D2]; subst. rewrite Forall_forall in D1. destruct A as [<-|A], B as [<-|B]; auto.
  - exfalso. apply (D1 b B). auto. - exfalso. apply (D1 a A). symmetry. auto.
Qed.
Lemma apart_distinct : forall sigs, apart sigs -> distinct_times sigs.
Proof.
  intros sigs A. induction A as [|a l F A IH]; constructor; auto. rewrite Forall_forall in *. intros x X E. destruct (F x X) as [N _]. apply N. unfold close. destruct (Qabsb_cases (ts_time a - ts_time x)) as [[U ->]|[U ->]]; destruct (Qabsb_cases (ts_time x)) as [[V ->]|[V ->]]; lra.
Qed.

(** Where the state stands in the (sorted) list of all signatures. *)
Definition fine (all : list tsig) (st : bstate) : Prop :=
  match b_sig st with
  | None => all = []
  | Some s => exists l, all = l ++ s :: b_sigs st /\ (b_first st = true -> l = []) /\ (b_first st = false -> ts_time s <= b_last st)
  end.
Lemma init_spec : forall m sigs start, tempo_map m -> meters sigs -> clear_of_tempo m sigs ->
  exists st, beats_init m (sort_sigs sigs) start = Ok st /\ binv st /\ b_last st = start /\ fine (sort_sigs sigs) st /\
    (forall s, In s (b_sigs st) -> start < ts_time s) /\
    (forall a b, start <= a -> quarters m a b == quarters_from (b_qpm st) (b_rest st) a b) /\
    (forall c, In c (b_rest st) -> exists c0 r, m = c0 :: r /\ In c r) /\ (b_qpm st = snd (hd (0, 0) m) \/ In (b_qpm st) (map snd (tl m))).
Proof.
  intros m sigs start [NE [SM PM]] MT CL. destruct m as [|[t0 q0] rest]; [congruence|]. unfold beats_init. destruct (skip_tempo start q0 rest) as [q r] eqn:SK.
  apply StronglySorted_inv in SM as [SM _].
  assert (TK : tempi_ok q0 rest). { split; [apply (PM (t0, q0)); left; auto|]. intros c I. apply PM. right. auto. }
  destruct (skip_tempo_spec start rest q0 q r TK SM SK) as [A1 [A2 [A3 [A4 A5]]]].
  assert (QI : q = q0 \/ In q (map snd rest)).
  { clear - SK. revert q0 SK. induction rest as [|[t q1] r0 IH]; intros q0 SK; cbn [skip_tempo] in SK; [injection SK as <- _; auto|]. destruct (Qltb t start); [|injection SK as <- _; auto]. destruct (IH q1 SK) as [->|X]; right; [left|right]; auto. }
  pose proof (sort_sorted sigs) as SS. pose proof (sort_in sigs) as SI. destruct (sort_sigs sigs) as [|s ss] eqn:ES.
  - eexists. split; [reflexivity|]. split; [constructor; cbn; [auto|auto|auto|auto|intros ? []|constructor|intros ? []|auto|intros ? ? ? []]|]. cbn. repeat split; auto. { intros s []. } intros c I. exists (t0, q0), rest. auto.
  - destruct (skip_sigs start true s ss) as [f [s' r']] eqn:SG. destruct (skip_sigs_spec start ss true s f s' r' SS SG) as [l [B1 [B2 B3]]].
    assert (IN : forall x, In x (s' :: r') -> In x sigs). { intros x X. apply SI. rewrite B1. apply in_app_iff. auto. }
    eexists. split; [reflexivity|]. split; [constructor; cbn|].
    + auto. + auto. + auto. + apply MT, IN. left. auto. + intros x X. apply MT, IN. right. auto.
    + rewrite B1 in SS. apply SSQ_tail in SS. auto.
    + intros x X. apply Qlt_le_weak. auto.
    + intros; discriminate.
    + intros c x C X. apply CL; [right; auto|auto].
    + cbn. split; auto. split; [|split; [auto|split; [auto|split; auto]]].
      * unfold fine. cbn. exists l. split; auto. destruct B3 as [[-> ->]|[-> B3]]; split; auto; intros; discriminate.
      * intros c I. exists (t0, q0), rest. auto.
Qed.
Lemma fine_next : forall all st, binv st -> fine all st -> fine all (next_beat st).
Proof.
  intros all st I F. destruct (next_spec st I) as [nb [I' [K [L _]]]]. destruct (slow_exists st I) as [d [D SL]]. destruct (advance d st I SL D) as [B1 _]. unfold fine in *.
  destruct K as [K1 K2 K3 K4 K5|s K1 K2 K3 K4 K5 K6 K7 K8|s nb2 K1 K2 K3 K4 K5 K6 K7].
  - rewrite K2, K3, K4. destruct (b_sig st) as [s|]; auto. destruct F as [l [F1 [F2 F3]]]. exists l. split; auto. split; auto. intro X. specialize (F3 X). lra.
  - rewrite K6, K7, K8. rewrite K1 in *. destruct F as [l [F1 [F2 F3]]]. exists l. split; auto. split; auto. intros; discriminate.
  - rewrite K6, K7. destruct (b_sig st) as [s0|] eqn:E0; [|rewrite (bi_none st I E0) in K1; discriminate]. destruct F as [l [F1 [F2 F3]]]. exists (l ++ [s0]). split; [rewrite <- app_assoc; cbn; rewrite <- K1; auto|]. split; [intros; discriminate|]. intros _. rewrite K5. lra.
Qed.
Lemma strict_init : forall all st, StronglySorted (fun a b => ts_time a < ts_time b) all -> fine all st -> (forall s, In s (b_sigs st) -> b_last st < ts_time s) -> (b_sig st = None -> b_sigs st = []) -> strict st.
Proof.
  intros all st SS F A N. split; auto. unfold fine in F. destruct (b_sig st) as [s|]; [|rewrite N; auto; constructor]. destruct F as [l [-> _]]. cbn [sig_list app]. clear - SS. induction l as [|a l IH]; cbn in SS; auto. apply StronglySorted_inv in SS as [SS _]. auto.
Qed.
Lemma fine_in_force : forall all st s, binv st -> strict st -> fine all st -> StronglySorted (fun a b => ts_time a <= ts_time b) all -> b_sig st = Some s -> in_force all s (b_last st).
Proof.
  intros all st s I [S1 S2] F SS E. unfold fine in F. rewrite E in F. destruct F as [l [F1 [F2 F3]]]. split; [rewrite F1; apply in_app_iff; right; left; auto|].
  assert (LS : forall x, In x l -> ts_time x <= ts_time s).
  { clear - SS F1. subst all. induction l as [|a l IH]; cbn in SS; intros x X; [destruct X|]. apply SSQ_cons in SS as [SA SB]. destruct X as [<-|X]; [apply SA; apply in_app_iff; right; left; auto|auto]. }
  destruct (Qlt_le_dec (b_last st) (ts_time s)) as [C|C].
  - right. destruct (b_first st); [|specialize (F3 eq_refl); lra]. rewrite F2 in * by auto. cbn in F1. subst all. apply SSQ_cons in SS as [SA _]. intros s' [<-|X]; [split; lra|]. split; auto.
  - left. split; auto. intros s' X Y. rewrite F1 in X. apply in_app_iff in X as [X|[<-|X]]; auto; [lra|]. specialize (S2 s' X). lra.
Qed.
Lemma in_force_unique : forall sigs a b x, distinct_times sigs -> in_force sigs a x -> in_force sigs b x -> a = b.
Proof.
  intros sigs a b x D [A1 A2] [B1 B2]. apply (distinct_same sigs); auto. destruct A2 as [[A2 A3]|A2], B2 as [[B2 B3]|B2].
  - pose proof (A3 b B1 B2). pose proof (B3 a A1 A2). lra.
  - destruct (B2 a A1). lra.
  - destruct (A2 b B1). lra.
  - destruct (A2 b B1). destruct (B2 a A1). lra.
Qed.

(** ** consecutive beats come from one iteration *)
Lemma runs_pairs : forall (Inv : bstate -> Prop) stop, (forall st, binv st -> Inv st -> Inv (next_beat st)) ->
  forall st l, runs stop st l -> binv st -> Inv st -> forall x y, consecutive l x y -> exists st', binv st' /\ Inv st' /\ b_last st' = x /\ b_last (next_beat st') = y.
Proof.
  intros Inv stop PR st l R. induction R as [st H|st l H R IH]; intros I V x y [l1 [l2 E]]; [destruct l1; discriminate|].
  destruct (next_spec st I) as [_ [I' _]]. destruct l1 as [|z l1]; cbn in E.
  - injection E as <- ->. exists st. split; auto. split; auto. split; auto. inversion R; subst. auto.
  - injection E as <- ->. apply IH; auto. exists l1, l2. auto.
Qed.

(** ** tying the call to the relation *)
Lemma beats_runs : forall m sigs others start l, tempo_map m -> meters sigs -> clear_of_tempo m sigs ->
  beats_are m sigs others start l -> exists st, beats_init m (sort_sigs sigs) start = Ok st /\ runs (piece_end m (sort_sigs sigs) others) st l.
Proof.
  intros m sigs others start l TM MT CL [N B]. destruct (init_spec m sigs start TM MT CL) as [st [E _]]. exists st. split; auto. specialize (B N (Nat.le_refl N)). unfold get_beats in B. rewrite E in B. cbn [bind] in B.
  assert (X : beat_loop N (piece_end m (sort_sigs sigs) others) st = Some l) by congruence. eapply loop_runs. exact X.
Qed.
Lemma beats_exist : forall m sigs others start, tempo_map m -> meters sigs -> clear_of_tempo m sigs -> exists l, beats_are m sigs others start l.
Proof.
  intros m sigs others start TM MT CL. destruct (init_spec m sigs start TM MT CL) as [st [E [I _]]]. destruct (runs_exist (piece_end m (sort_sigs sigs) others) st I) as [l R]. exists l, (List.length l). intros fuel F.
  unfold get_beats. rewrite E. cbn [bind]. rewrite (runs_loop _ _ _ R); auto.
Qed.
Lemma beats_unique : forall m sigs others start l l', beats_are m sigs others start l -> beats_are m sigs others start l' -> l = l'.
Proof. intros m sigs others start l l' [N B] [N' B']. specialize (B (N + N')%nat ltac:(lia)). specialize (B' (N + N')%nat ltac:(lia)). congruence. Qed.

Lemma C121a : forall m sigs others start, tempo_map m -> meters sigs -> clear_of_tempo m sigs ->
  exists l, beats_are m sigs others start l /\ StronglySorted Qle l /\
    (forall x, In x l -> start <= x < piece_end m (sort_sigs sigs) others) /\
    (start < piece_end m (sort_sigs sigs) others -> exists r, l = start :: r) /\
    (distinct_times sigs -> StronglySorted Qlt l).
Proof.
  intros m sigs others start TM MT CL. destruct (beats_exist m sigs others start TM MT CL) as [l B]. exists l. split; auto. destruct (beats_runs _ _ _ _ _ TM MT CL B) as [st [E R]].
  destruct (init_spec m sigs start TM MT CL) as [st' [E' [I [LA [FI [AH _]]]]]]. assert (st' = st) by congruence. subst st'. destruct (runs_order _ _ _ R I) as [A1 [A2 A3]]. rewrite LA in *.
  split; auto. split; auto. split; auto. intro D. eapply runs_strict; eauto. eapply strict_init; eauto; [apply distinct_sorted; auto|rewrite LA; auto|apply (bi_none st I)].
Qed.

(** ** one beat of music between beats *)
Lemma C122a : forall m sigs others start l x y, tempo_map m -> meters sigs -> clear_of_tempo m sigs ->
  (sigs = [] \/ exists s, sigs = [s] /\ ts_time s <= start) -> beats_are m sigs others start l -> consecutive l x y ->
  (sigs = [] -> quarters m x y == 1) /\ (forall s k, sigs = [s] -> beats_per_quarter s k -> k * quarters m x y == 1).
Proof.
  intros m sigs others start l x y TM MT CL SG B C. destruct (beats_runs _ _ _ _ _ TM MT CL B) as [st [E R]].
  destruct (init_spec m sigs start TM MT CL) as [st' [E' [I [LA [FI [AH [QT _]]]]]]]. assert (st' = st) by congruence. subst st'.
  set (sg := match sigs with [] => None | s :: _ => Some s end).
  assert (X : b_sigs st = [] /\ b_sig st = sg).
  { unfold sg. unfold beats_init in E. destruct m as [|[t0 q0] rest]; [discriminate|]. destruct (skip_tempo start q0 rest) as [q r]. destruct SG as [->|[s [-> _]]]; cbn in E; injection E as <-; auto. }
  destruct X as [X1 X2].
  assert (V : forall s, b_sig st = Some s -> ts_time s <= b_last st).
  { rewrite LA. intros s0 S0. rewrite X2 in S0. unfold sg in S0. destruct SG as [->|[s [-> SL]]]; [discriminate|]. injection S0 as <-. auto. }
  destruct (runs_pairs (fun st => b_sigs st = [] /\ b_sig st = sg /\ (forall s, b_sig st = Some s -> ts_time s <= b_last st) /\ (forall a b, b_last st <= a -> quarters m a b == quarters_from (b_qpm st) (b_rest st) a b)) (piece_end m (sort_sigs sigs) others)) with (st := st) (l := l) (x := x) (y := y) as [st1 [I1 [[V1 [V2 [V3 V4]]] [L1 L2]]]]; auto.
  { clear. intros st I [V1 [V2 [V3 V4]]]. destruct (next_spec st I) as [nb [I' [K [L [_ [_ [_ [_ [QQ _]]]]]]]]]. destruct K as [K1 K2 K3 K4 K5|s K1 K2 K3 K4 K5 K6 K7 K8|s nb2 K1 K2 K3 K4 K5 K6 K7].
    - rewrite K3, K2, K1. split; auto. split; auto. split; [intros s S0; specialize (V3 s S0); lra|]. intros a b A. rewrite V4 by lra. apply QQ. auto.
    - specialize (V3 s K1). lra.
    - rewrite V1 in K1. discriminate. }
  { split; auto. split; auto. split; auto. rewrite LA. auto. }
  destruct (next_spec st1 I1) as [nb [_ [K [L [_ [_ [QR _]]]]]]].
  assert (NB : b_last (next_beat st1) = nb). { destruct K as [K1 K2 K3 K4 K5|s K1 K2 K3 K4 K5 K6 K7 K8|s nb2 K1 K2 K3 K4 K5 K6 K7]; auto; [specialize (V3 s K1); lra|rewrite V1 in K1; discriminate]. }
  rewrite NB in L2. subst nb. rewrite <- V4 in QR by lra. rewrite L1 in QR. rewrite V2 in QR. unfold sg in QR. split.
  - intros ->. unfold rate in QR. cbn in QR. lra.
  - intros s k -> BQ. rewrite (rate_spec s k BQ) in QR. auto.
Qed.

(** ** one tempo, any signatures *)
Lemma C123a : forall t0 q sigs others start l x y, 0 < q -> meters sigs -> clear_of_tempo [(t0, q)] sigs -> distinct_times sigs ->
  beats_are [(t0, q)] sigs others start l -> consecutive l x y -> forall s k, in_force sigs s x -> beats_per_quarter s k ->
  y == x + 60 / (k * q) \/ (exists s', In s' sigs /\ y = ts_time s' /\ x < ts_time s' /\ (ts_time s' <= x + 60 / (k * q) \/ close (x + 60 / (k * q)) (ts_time s') \/ exists s0, In s0 sigs /\ x < ts_time s0 /\ close (ts_time s0) (ts_time s'))).
Proof.
  intros t0 q sigs others start l x y QP MT CL DT B C s k IF BQ.
  assert (TM : tempo_map [(t0, q)]). { split; [discriminate|]. split; [constructor; constructor|]. intros c [<-|[]]. auto. }
  destruct (beats_runs _ _ _ _ _ TM MT CL B) as [st [E R]]. destruct (init_spec _ sigs start TM MT CL) as [st' [E' [I [LA [FI [AH [QT [RS QS]]]]]]]]. assert (st' = st) by congruence. subst st'.
  assert (SS : strict st). { eapply strict_init; eauto; [apply distinct_sorted; auto|rewrite LA; auto|apply (bi_none st I)]. }
  assert (RN : b_rest st = []). { destruct (b_rest st) as [|c r] eqn:ER; auto. destruct (RS c) as [c0 [r0 [M1 M2]]]; [left; auto|]. injection M1 as _ <-. destruct M2. }
  assert (QE : b_qpm st = q). { cbn in QS. destruct QS as [QS|[]]. auto. }
  destruct (runs_pairs (fun st => strict st /\ fine (sort_sigs sigs) st /\ b_rest st = [] /\ b_qpm st = q) (piece_end [(t0, q)] (sort_sigs sigs) others)) with (st := st) (l := l) (x := x) (y := y) as [st1 [I1 [[V1 [V2 [V3 V4]]] [L1 L2]]]]; auto.
  { clear. intros st I [V1 [V2 [V3 V4]]]. destruct (next_spec st I) as [nb [I' [K [L [IR [IQ _]]]]]]. split; [apply strict_next; auto|]. split; [apply fine_next; auto|]. rewrite V3 in *. split.
    - destruct (b_rest (next_beat st)) as [|c r]; auto. destruct (IR c). left. auto.
    - destruct IQ as [->|[]]. auto. }
  assert (SG : exists s1, b_sig st1 = Some s1).
  { destruct (b_sig st1) as [s1|] eqn:ES; [exists s1; auto|]. unfold fine in V2. rewrite ES in V2. destruct IF as [IF _]. apply sort_in in IF. rewrite V2 in IF. destruct IF. }
  destruct SG as [s1 SG]. pose proof (fine_in_force _ st1 s1 I1 V1 V2 (sort_sorted sigs) SG) as IF1. rewrite L1 in IF1.
  assert (IF2 : in_force sigs s1 x). { destruct IF1 as [P1 P2]. split; [apply sort_in; auto|]. destruct P2 as [[P2 P3]|P2]; [left|right]; [split; auto|]; intros s' S'; [apply P3|apply P2]; apply sort_in; auto. }
  assert (s1 = s) by (eapply in_force_unique; eauto). subst s1.
  destruct (next_spec st1 I1) as [nb [_ [K [L [_ [_ [_ [_ [_ [NB _]]]]]]]]]]. specialize (NB V3). rewrite SG, V4, L1 in NB.
  assert (NE : nb == x + 60 / (k * q)). { rewrite NB. rewrite bpm_rate, (rate_spec s k BQ). reflexivity. }
  assert (CLO : forall a b c, a == b -> close a c -> close b c). { intros a b c EQ. unfold close. destruct (Qabsb_cases (a - c)) as [[U ->]|[U ->]]; destruct (Qabsb_cases (b - c)) as [[W ->]|[W ->]]; intro; lra. }
  destruct K as [K1 K2 K3 K4 K5|s0 K1 K2 K3 K4 K5 K6 K7 K8|s0 nb2 K1 K2 K3 K4 K5 K6 K7].
  - left. rewrite <- L2, K1. auto.
  - right. exists s0. rewrite SG in K1. injection K1 as <-. split; [apply IF|]. split; [congruence|]. split; [rewrite <- L1; auto|]. apply gtc_true in K4 as [K4|[_ K4]]; [left; lra|right; left; eapply CLO; eauto].
  - right. exists s0. assert (IN : In s0 sigs). { apply sort_in. unfold fine in V2. rewrite SG in V2. destruct V2 as [l0 [-> _]]. apply in_app_iff. right. right. rewrite K1. left. auto. }
    split; auto. split; [congruence|]. destruct V1 as [_ V1]. split; [rewrite <- L1; apply V1; rewrite K1; left; auto|].
    destruct K3 as [->|[s2 [M1 [M2 [M3 [M4 M5]]]]]]; [apply gtc_true in K2 as [K2|[_ K2]]; [left; lra|right; left; eapply CLO; eauto]|].
    right. right. rewrite SG in M1. injection M1 as <-. exists s. split; [apply IF|]. split; [rewrite <- L1; auto|]. subst nb2. apply gtc_true in K2 as [K2|[_ K2]]; auto.
    exfalso. unfold fine in V2. rewrite SG in V2. destruct V2 as [l0 [V2 [V5 _]]]. rewrite V5 in V2 by auto. pose proof (distinct_sorted sigs DT) as DS. rewrite V2 in DS. cbn in DS. apply StronglySorted_inv in DS as [_ DS]. rewrite Forall_forall in DS. specialize (DS s0). rewrite K1 in DS. specialize (DS (or_introl eq_refl)). lra.
Qed.
