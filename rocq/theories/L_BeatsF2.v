(** Lemmas about M_BeatsF: the call, one tempo. *)
From Coq Require Import Sorted Permutation Lia Lqa Qfield Qabs Qpower Qround.
From Verif Require Import PyBase M_Float M_Beats M_BeatsF S_Beats S_Snap S_ShiftF S_BeatsF L_Base L_Float L_Float2 L_Snap L_NoteF L_NoteF2 L_UtilsF L_UtilsF2 L_UtilsF3 P_Rounding L_ShiftF L_Beats L_Beats2 L_Beats3 L_BeatsF.
Open Scope Q_scope.

(** ** the call *)
Lemma init_f : forall m all start, m <> [] -> StronglySorted (fun a b => ts_time a <= ts_time b) all ->
  exists st, beats_init m all start = Ok st /\ b_last st = start /\ fine all st /\ (forall s, In s (b_sigs st) -> start < ts_time s) /\
    (b_sig st = None -> b_sigs st = []) /\ (forall t q, m = [(t, q)] -> b_qpm st = q /\ b_rest st = []).
Proof.
  intros m all start NE SS. destruct m as [|[t0 q0] rest]; [congruence|]. cbn [beats_init]. destruct (skip_tempo start q0 rest) as [q r] eqn:SK.
  assert (ONE : forall t q', (t0, q0) :: rest = [(t, q')] -> q = q' /\ r = []).
  { intros t q' E. injection E as -> -> ->. cbn in SK. injection SK as <- <-. auto. }
  destruct all as [|s ss].
  - eexists. split; [reflexivity|]. cbn. split; auto. split; auto. split; [intros x []|]. split; auto.
  - destruct (skip_sigs start true s ss) as [f [s' r']] eqn:SG. destruct (skip_sigs_spec _ _ _ _ _ _ _ SS SG) as [l [A1 [A2 A3]]].
    eexists. split; [reflexivity|]. cbn [b_last b_sigs b_sig b_qpm b_rest fine]. split; auto. split; [|split; [auto|split; [discriminate|auto]]].
    unfold fine. cbn [b_sig b_sigs b_first b_last]. exists l. split; auto. destruct A3 as [[-> ->]|[-> A3]]; split; auto; discriminate.
Qed.
Lemma wide_sorted : forall sigs, wide sigs -> wide (sort_sigs sigs) /\ StronglySorted (fun a b => ts_time a < ts_time b) (sort_sigs sigs).
Proof. intros sigs W. split; [eapply wide_perm; [apply sort_perm|auto]|]. apply distinct_sorted. apply wide_distinct. auto. Qed.
Lemma wide_tail : forall l m, wide (l ++ m) -> wide m.
Proof. induction l as [|a l IH]; intros m W; auto. apply IH. inversion W; auto. Qed.
Lemma SSL_app : forall l m, StronglySorted (fun a b => ts_time a < ts_time b) (l ++ m) -> StronglySorted (fun a b => ts_time a < ts_time b) m /\ forall a b, In a l -> In b m -> ts_time a < ts_time b.
Proof.
  induction l as [|x l IH]; intros m H; cbn [app] in H.
  - split; auto. intros a b [].
  - apply SSL_cons in H as [H1 H2]. destruct (IH m H2) as [A B]. split; auto. intros a b [<-|I] J; auto. apply H1. apply in_or_app. auto.
Qed.
Lemma SSL_weak : forall l, StronglySorted (fun a b => ts_time a < ts_time b) l -> StronglySorted (fun a b => ts_time a <= ts_time b) l.
Proof. intros l H. induction H as [|a l H IH F]; constructor; auto. eapply Forall_impl; [|exact F]. cbv beta. intros. lra. Qed.
Lemma fine_ahead : forall all st, wide all -> StronglySorted (fun a b => ts_time a < ts_time b) all -> fine all st ->
  (forall s, In s (b_sigs st) -> b_last st < ts_time s) -> (b_sig st = None -> b_sigs st = []) -> ok_ahead st /\ (forall s, In s all -> b_last st < ts_time s -> In s (ahead st)).
Proof.
  intros all st W SS F LT NN. unfold fine in F. unfold ok_ahead. destruct (b_sig st) as [s0|] eqn:SG.
  - destruct F as [l [F1 [F2 F3]]]. cbn [sig_list app]. subst all. destruct (SSL_app _ _ SS) as [SS1 SS2]. split; [split; [eapply wide_tail; eauto|split; auto]|].
    intros s I L. unfold ahead. rewrite SG. apply in_app_iff in I as [I|[<-|I]].
    + destruct (b_first st) eqn:B; [rewrite F2 in I by auto; destruct I|]. specialize (F3 eq_refl). specialize (SS2 s s0 I ltac:(left; auto)). lra.
    + destruct (b_first st) eqn:B; [|specialize (F3 eq_refl); lra]. replace (Qltb (b_last st) (ts_time s0)) with true by (symmetry; apply Qltb_lt; auto). left. auto.
    + apply in_or_app. auto.
  - subst all. rewrite NN by auto. cbn. split; [split; [auto|split; [auto|intros s []]]|]. intros s [].
Qed.
Lemma beats_f_runs : forall m sigs others start l st, beats_init m (sort_sigs sigs) start = Ok st ->
  (beats_f_are m sigs others start l <-> runsf (piece_end m (sort_sigs sigs) others) st l).
Proof.
  intros m sigs others start l st E. split.
  - intros [N B]. specialize (B N (Nat.le_refl N)). unfold get_beats_f in B. rewrite E in B. cbn [bind] in B. injection B as B. eapply loop_runsf. exact B.
  - intros R. exists (List.length l). intros fuel L. unfold get_beats_f. rewrite E. cbn [bind]. rewrite (runsf_loop _ _ _ R); auto.
Qed.
Lemma beats_f_unique : forall m sigs others start l l', beats_f_are m sigs others start l -> beats_f_are m sigs others start l' -> l = l'.
Proof. intros m sigs others start l l' [N B] [N' B']. specialize (B (N + N')%nat ltac:(lia)). specialize (B' (N + N')%nat ltac:(lia)). congruence. Qed.
Lemma runsf_start : forall stop st l, runsf stop st l -> (forall x, In x l -> x < stop) /\ (b_last st < stop -> exists r, l = b_last st :: r) /\ (stop <= b_last st -> l = []).
Proof.
  intros stop st l R. induction R as [st H|st l H R IH].
  - split; [intros x []|]. split; [intro; lra|auto].
  - destruct IH as [A _]. split; [intros x [<-|I]; auto|]. split; [intros _; eexists; reflexivity|intro; lra].
Qed.
Lemma beats_f_start : forall m sigs others start l, m <> [] -> beats_f_are m sigs others start l ->
  (forall x, In x l -> x < piece_end m (sort_sigs sigs) others) /\ (start < piece_end m (sort_sigs sigs) others -> exists r, l = start :: r) /\ (piece_end m (sort_sigs sigs) others <= start -> l = []).
Proof.
  intros m sigs others start l NE B. destruct (init_f m (sort_sigs sigs) start NE (sort_sorted sigs)) as [st [E [L _]]].
  apply (beats_f_runs _ _ _ _ _ st E) in B. rewrite <- L. apply runsf_start. auto.
Qed.
Lemma beats_f_changes : forall m sigs others start l, m <> [] -> wide sigs -> beats_f_are m sigs others start l ->
  forall s, In s sigs -> start < ts_time s -> ts_time s < piece_end m (sort_sigs sigs) others -> In (ts_time s) l.
Proof.
  intros m sigs others start l NE W B s I L1 L2. destruct (init_f m (sort_sigs sigs) start NE (sort_sorted sigs)) as [st [E [L [F [LT [NN _]]]]]].
  apply (beats_f_runs _ _ _ _ _ st E) in B. destruct (wide_sorted sigs W) as [W' SS]. rewrite <- L in LT.
  destruct (fine_ahead _ _ W' SS F LT NN) as [OK AH]. eapply runsf_hits; eauto. apply AH; [apply sort_in; auto|rewrite L; auto].
Qed.

(** ** one tempo *)
Lemma fl_double : forall x, is_double (fl x).
Proof.
  intros x. unfold is_double. destruct (Qlt_le_dec x 0) as [A|A].
  - pose proof (fl_opp x) as O. pose proof (fl_idem (- x) ltac:(lra)) as I. assert (E : fl x == - fl (- x)) by lra. rewrite (fl_m _ _ E). rewrite fl_opp. rewrite I. lra.
  - rewrite fl_idem by auto. reflexivity.
Qed.
Lemma bpm_near : forall sig q, good sig -> 0 < q -> near 3 (bpm_of_f sig q) (bpm_of sig q).
Proof.
  intros [s|] q G Q0; cbn [bpm_of_f bpm_of]; [|apply near_refl; lra]. destruct G as [_ G].
  assert (D : 0 <= inject_Z (ts_den s)) by (change 0 with (inject_Z 0); rewrite <- Zle_Qle; lia).
  assert (D3 : 0 <= q / 3) by (apply Qle_shift_div_l; lra).
  assert (E0 : near 1 (fl (q * inject_Z (ts_den s))) (q * inject_Z (ts_den s))) by (apply near_fl; apply Qmult_le_0_compat; lra).
  assert (E1 : near 3 (fl (fl (q * inject_Z (ts_den s)) / 4)) (q * inject_Z (ts_den s) / 4)).
  { apply (near_le 2 3); [lia|]. apply near_fl'. apply near_quot; [reflexivity|auto]. }
  assert (E2 : near 3 (fl (fl (fl (q / 3) * inject_Z (ts_den s)) / 4)) (q / 3 * inject_Z (ts_den s) / 4)).
  { apply near_fl'. apply near_quot; [reflexivity|]. apply near_fl'. apply near_mul; auto. apply near_fl. auto. }
  unfold qpm_to_bpm_f, qpm_to_bpm. destruct (existsb _ _); [|apply near_refl; lra]. destruct (_ =? 3)%Z; auto. destruct (_ mod 3 =? 0)%Z; auto.
Qed.
Lemma bpm_pos : forall sig q, good sig -> 0 < q -> 0 < bpm_of sig q.
Proof. intros sig q G Q0. rewrite bpm_rate. pose proof (rate_pos sig G). apply Qmult_lt_0_compat; auto. Qed.
Lemma bpm_f_pos : forall sig q, good sig -> 0 < q -> 0 < bpm_of_f sig q.
Proof. intros sig q G Q0. eapply near_pos; [apply bpm_near; auto|apply bpm_pos; auto]. Qed.
Lemma period_near : forall sig q, good sig -> 0 < q -> near 4 (fl (60 / bpm_of_f sig q)) (60 / bpm_of sig q).
Proof. intros sig q G Q0. apply near_fl'. apply near_div; [discriminate|apply bpm_pos; auto|apply bpm_near; auto]. Qed.
Lemma after_f_mono : forall last bpm, is_double last -> 0 < bpm -> last <= after_f last bpm /\ is_double (after_f last bpm).
Proof.
  intros last bpm D B. split; [|apply fl_double]. unfold is_double in D. unfold after_f. rewrite <- D at 1. apply fl_mono.
  assert (0 <= fl (60 / bpm)); [|lra]. apply fl_nonneg. apply Qle_shift_div_l; lra.
Qed.
Lemma after_f_near : forall last sig q, good sig -> 0 < q -> let P := 60 / bpm_of sig q in
  0 < P /\ Qabs (after_f last (bpm_of_f sig q) - (last + P)) <= Qabs last * u + P * (18 * u).
Proof.
  intros last sig q G Q0 P. assert (P0 : 0 < P) by (apply Qlt_shift_div_l; [apply bpm_pos; auto|lra]). split; auto.
  pose proof (period_near sig q G Q0) as N. apply near_bnd in N; [|cbn; lia]. fold P in N. unfold after_f. set (p := fl (60 / bpm_of_f sig q)) in *. clearbody p.
  pose proof (fl_rounded (last + p)) as R. unfold rounded in R. assert (Y : (Qabs (last + p) / inject_Z (2 ^ 53) == Qabs (last + p) * u)) by (unfold Qdiv; assert (Z1 : (/ inject_Z (2 ^ 53) == u)) by reflexivity; rewrite Z1; reflexivity).
  rewrite Y in R. pose proof (Qabs_triangle last p) as T. change (inject_Z (Z.of_nat 4)) with 4 in N. rewrite U_eq in *. destruct N as [N1 N2].
  assert (Qabs p == p) by (apply Qabs_pos; lra). apply Qabs_Qle_condition in R. apply Qabs_Qle_condition. pose proof (Qabs_nonneg last). lra.
Qed.
Lemma tempo_one : forall f last q, tempo_beat_f f last q [] = (after_f last (f q), (q, [])).
Proof. reflexivity. Qed.

Record inv1 (all : list tsig) (q : Q) (st : bstate) : Prop := {
  v_rest : b_rest st = []; v_qpm : b_qpm st = q; v_ok : ok_ahead st; v_fine : fine all st; v_dbl : is_double (b_last st); v_none : b_sig st = None -> b_sigs st = [] }.
Lemma inv1_good : forall all q st, meters all -> inv1 all q st -> good (b_sig st).
Proof.
  intros all q st M I. pose proof (v_fine _ _ _ I) as F. unfold fine in F. destruct (b_sig st) as [s|]; cbn [good]; auto. destruct F as [l [F _]]. apply M. rewrite F. apply in_or_app. right. left. auto.
Qed.
Lemma inv1_next : forall all q st, 0 < q -> meters all -> (forall s, In s all -> is_double (ts_time s)) -> inv1 all q st ->
  inv1 all q (next_beat_f st) /\ stepf st (next_beat_f st) (after_f (b_last st) (bpm_of_f (b_sig st) q)) /\ b_last st <= after_f (b_last st) (bpm_of_f (b_sig st) q) /\ b_last st <= b_last (next_beat_f st) /\
  (List.length (ahead (next_beat_f st)) <= List.length (ahead st))%nat /\
  (b_last (next_beat_f st) = after_f (b_last st) (bpm_of_f (b_sig st) q) \/ (List.length (ahead (next_beat_f st)) < List.length (ahead st))%nat /\ b_last st < b_last (next_beat_f st)).
Proof.
  intros all q st Q0 M D I. pose proof (inv1_good _ _ _ M I) as G. destruct I as [I1 I2 I3 I4 I5 I6].
  assert (TB : tempo_beat_f (bpm_of_f (b_sig st)) (b_last st) (b_qpm st) (b_rest st) = (after_f (b_last st) (bpm_of_f (b_sig st) q), (q, []))) by (rewrite I1, I2; reflexivity).
  destruct (after_f_mono (b_last st) (bpm_of_f (b_sig st) q) I5 (bpm_f_pos _ _ G Q0)) as [MO DB].
  set (nb := after_f (b_last st) (bpm_of_f (b_sig st) q)) in *. clearbody nb. destruct (next_f_cases st nb q [] I3 TB) as [E1 [E2 [K OK]]]. pose proof (ahead_after st) as AA. specialize (fun s => AA s (proj2 (proj2 I3))).
  set (st' := next_beat_f st) in *. clearbody st'. split; [|split; [exact K|split; [exact MO|]]].
  - split; auto.
    + unfold fine in *. destruct K as [K1 K2 K3 K4 K5|s [r [A1 A2]] GT K1 K2 [[K3 [K4 [K5 K6]]]|[K3 K4]]].
      * rewrite K2, K3, K4, K1. destruct (b_sig st) as [s|]; auto. destruct I4 as [l [F1 [F2 F3]]]. exists l. split; auto. split; auto. intro B. specialize (F3 B). lra.
      * rewrite K2, K4, K6, K1. rewrite K3 in I4. destruct I4 as [l [F1 [F2 F3]]]. exists l. split; auto. split; auto. discriminate.
      * rewrite K2, K4, K1. destruct (b_sig st) as [s0|]; [|rewrite I6 in K3 by auto; discriminate]. destruct I4 as [l [F1 _]]. exists (l ++ [s0]). split; [rewrite <- app_assoc; cbn [app]; rewrite <- K3; auto|]. split; [discriminate|]. intros _. lra.
    + destruct K as [K1 K2 K3 K4 K5|s [r [A1 A2]] GT K1 K2 K3]; rewrite K1; auto. apply D. unfold fine in I4. destruct (b_sig st) as [s0|].
      * destruct I4 as [l [F1 _]]. rewrite F1. apply in_or_app. right. destruct K3 as [[K3 _]|[K3 _]]; [left; congruence|right; rewrite K3; left; auto].
      * destruct K3 as [[K3 _]|[K3 _]]; [discriminate|]. rewrite I6 in K3 by auto. discriminate.
    + intro B. destruct K as [K1 K2 K3 K4 K5|s [r [A1 A2]] GT K1 K2 K3]; [rewrite K3; apply I6; congruence|congruence].
  - destruct K as [K1 K2 K3 K4 K5|s [r [A1 A2]] GT K1 K2 K3].
    + split; [rewrite K1; auto|]. split; [|left; auto]. unfold ahead in *. rewrite K2, K3, K4, K1. rewrite !app_length. apply Nat.add_le_mono_r. destruct (b_sig st) as [s0|]; auto. destruct (b_first st); auto. cbn [andb] in *.
      destruct (Qltb (b_last st) (ts_time s0)) eqn:X; [destruct (Qltb nb _); cbn; lia|]. apply Qltb_ge in X. replace (Qltb nb (ts_time s0)) with false by (symmetry; apply Qltb_ge; lra). auto.
    + assert (L : b_last st < ts_time s) by (apply AA; rewrite A1; left; auto). split; [rewrite K1; lra|].
      assert (A' : ahead st' = r). { unfold ahead. rewrite K2, K1. replace (Qltb (ts_time s) (ts_time s)) with false by (symmetry; apply Qltb_ge; lra). rewrite andb_false_r, A2. reflexivity. }
      rewrite A', A1. cbn [List.length]. split; [lia|]. right. split; [lia|]. rewrite K1. auto.
Qed.
Lemma runsf_pairs : forall all q stop, 0 < q -> meters all -> (forall s, In s all -> is_double (ts_time s)) ->
  forall st l, runsf stop st l -> inv1 all q st -> (forall x y, consecutive l x y -> exists st', inv1 all q st' /\ b_last st' = x /\ b_last (next_beat_f st') = y /\ x < stop /\ b_last st <= x) /\ StronglySorted Qle l /\ (forall x, In x l -> b_last st <= x).
Proof.
  intros all q stop Q0 M D st l R. induction R as [st H|st l H R IH]; intros I.
  - split; [intros x y [l1 [l2 E]]; destruct l1; discriminate|]. split; [constructor|intros x []].
  - destruct (inv1_next all q st Q0 M D I) as [I' [_ [_ [MO _]]]]. destruct (IH I') as [IH1 [IH2 IH3]]. split; [|split].
    + intros x y [l1 [l2 E]]. destruct l1 as [|z l1]; cbn [app] in E.
      * injection E as <- E. exists st. split; auto. split; auto. split; [|split; auto; lra]. subst l. inversion R; subst. auto.
      * injection E as <- E. destruct (IH1 x y ltac:(exists l1, l2; auto)) as [st' [J1 [J2 [J3 [J4 J5]]]]]. exists st'. repeat split; auto; try apply J1. lra.
    + constructor; auto. rewrite Forall_forall. intros x X. specialize (IH3 x X). lra.
    + intros x [<-|X]; [lra|]. specialize (IH3 x X). lra.
Qed.
Lemma inv1_in_force : forall all q st s, StronglySorted (fun a b => ts_time a < ts_time b) all -> inv1 all q st -> b_sig st = Some s -> in_force all s (b_last st).
Proof.
  intros all q st s SS I E. destruct I as [_ _ [_ [_ LT]] F _ _]. unfold fine in F. rewrite E in F. destruct F as [l [F1 [F2 F3]]]. subst all. destruct (SSL_app _ _ SS) as [S1 S2]. apply SSL_cons in S1 as [S1 _].
  split; [apply in_or_app; right; left; auto|]. destruct (Qlt_le_dec (b_last st) (ts_time s)) as [L|L].
  - right. destruct (b_first st) eqn:B; [|specialize (F3 eq_refl); lra]. rewrite F2 by auto. cbn [app]. intros s' [<-|I']; [lra|]. specialize (S1 s' I'). lra.
  - left. split; auto. intros s' I' L'. apply in_app_iff in I' as [I'|[<-|I']]; [specialize (S2 s' s I' ltac:(left; auto)); lra|lra|specialize (LT s' I'); lra].
Qed.
Lemma init_inv1 : forall t0 q sigs start, wide sigs -> is_double start -> exists st, beats_init [(t0, q)] (sort_sigs sigs) start = Ok st /\ b_last st = start /\ inv1 (sort_sigs sigs) q st.
Proof.
  intros t0 q sigs start W D. destruct (init_f [(t0, q)] (sort_sigs sigs) start ltac:(discriminate) (sort_sorted sigs)) as [st [E [L [F [LT [NN ONE]]]]]]. exists st. split; auto. split; auto.
  destruct (wide_sorted sigs W) as [W' SS]. rewrite <- L in LT. destruct (fine_ahead _ _ W' SS F LT NN) as [OK _]. destruct (ONE t0 q eq_refl). split; auto. unfold is_double in *. rewrite L. auto.
Qed.
