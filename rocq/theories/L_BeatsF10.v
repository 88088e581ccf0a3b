(** Lemmas about M_BeatsF: counting beats over a tempo map, with rounding. *)
From Coq Require Import Sorted Permutation Lia Lqa Qfield Qabs Qround.
From Verif Require Import PyBase M_Float M_Beats M_BeatsF S_Beats S_BeatsF S_BeatsF2 L_Base L_Note L_Beats L_BeatsF2 L_BeatsF7 L_BeatsF8 L_BeatsF9.
Open Scope Q_scope.

Lemma qf_nonneg : forall rest q a b, 0 < q -> (forall c, In c rest -> 0 < snd c) -> a <= b -> 0 <= quarters_from q rest a b.
Proof.
  assert (LIN : forall q x, 0 < q -> 0 <= x -> 0 <= q * x / 60) by (intros; apply Qle_shift_div_l; [lra|]; setoid_replace (0 * 60) with 0 by ring; apply Qmult_le_0_compat; lra).
  induction rest as [|[t q'] r IH]; intros q a b Q0 TP AB; cbn [quarters_from]; [apply LIN; lra|].
  assert (Q1 : 0 < q') by apply (TP (t, q') (or_introl eq_refl)). assert (TP' : forall c, In c r -> 0 < snd c) by (intros; apply TP; right; auto).
  destruct (Qle_bool t a) eqn:TA; [apply IH; auto|]. apply Qle_bool_false in TA. destruct (Qle_bool b t) eqn:BT; [apply LIN; lra|]. apply Qle_bool_false in BT.
  pose proof (LIN q (t - a) Q0 ltac:(lra)). pose proof (IH q' t b Q1 TP' ltac:(lra)). lra.
Qed.
Lemma quarters_nonneg : forall m a b, tempo_map m -> a <= b -> 0 <= quarters m a b.
Proof. intros m a b [NE [_ TP]] AB. destruct m as [|[t q] r]; [congruence|]. cbn [quarters]. apply qf_nonneg; auto; [apply (TP (t, q)); left; auto|intros; apply TP; right; auto]. Qed.
Lemma slack_nonneg : forall stop lo hi n, 0 <= stop -> 0 < lo -> lo <= hi -> 0 <= slack stop lo hi n.
Proof.
  intros stop lo hi n S L H. unfold slack. apply Qle_shift_div_l; [reflexivity|]. setoid_replace (0 * inject_Z (2 ^ 53)) with 0 by ring. pose proof (inj_nn n).
  apply Qmult_le_0_compat; [apply Qmult_le_0_compat; [lra|]|]; apply Qle_shift_div_l; lra.
Qed.
Section multi.
Variables (m : list (Q * Q)) (sigs : list tsig) (others : list Q) (start k lo hi : Q).
Hypotheses (TM : tempo_map m) (M : meters sigs) (DT : distinct_times sigs) (SE : settled sigs start k) (BL : beat_lengths m k lo hi)
  (L0 : 0 < lo) (LH : lo <= hi) (N0 : 0 <= start).
Let stop := piece_end m (sort_sigs sigs) others.
Let e := slack stop lo hi (List.length m - 1).
Hypothesis (SM : e <= 1 # 4).
Lemma mf_returns : exists l, beats_f_are m sigs others start l /\ StronglySorted Qlt l.
Proof. destruct (multi_f m sigs others start k lo hi TM M DT SE BL L0 LH N0 SM) as [l [B [SO _]]]. exists l. auto. Qed.
Lemma mf_ends : forall l, beats_f_are m sigs others start l -> start < stop -> exists w, stop <= w /\ hd_error (l ++ [w]) = Some start /\
  (forall x y, consecutive (l ++ [w]) x y -> Qabs (k * quarters m x y - 1) <= e /\ x + lo / 2 <= y /\ start <= x) /\
  forall j b, nth_error (l ++ [w]) j = Some b -> start <= b /\ Qabs (k * quarters m start b - inject_Z (Z.of_nat j)) <= inject_Z (Z.of_nat j) * e.
Proof.
  intros l B C. destruct (multi_f m sigs others start k lo hi TM M DT SE BL L0 LH N0 SM) as [l' [B' [_ W]]]. rewrite (beats_f_unique _ _ _ _ _ _ B B'). destruct (W C) as [w [W1 [W2 W3]]].
  exists w. split; auto. split; auto. split; auto. apply (drift_list m k e lo start); auto. apply slack_nonneg; auto. lra.
Qed.
Lemma mf_last : forall l b, beats_f_are m sigs others start l -> In b l -> start < stop /\ b < stop.
Proof.
  intros l b B I. destruct TM as [NE _]. destruct (beats_f_start m sigs others start l NE B) as [A1 [A2 A3]]. split; [|auto].
  destruct (Qlt_le_dec start stop) as [QQ|QQ]; auto. rewrite (A3 QQ) in I. destruct I.
Qed.
Lemma mf_one_beat : forall l x y, beats_f_are m sigs others start l -> consecutive l x y -> Qabs (k * quarters m x y - 1) <= e /\ x + lo / 2 <= y.
Proof.
  intros l x y B [l1 [l2 ->]]. destruct (mf_last _ x B) as [C _]; [apply in_or_app; right; left; auto|]. destruct (mf_ends _ B C) as [w [_ [_ [W _]]]].
  destruct (W x y) as [W1 [W2 W3]]; auto. exists l1, (l2 ++ [w]). rewrite <- app_assoc. reflexivity.
Qed.
Lemma mf_drift : forall l j b, beats_f_are m sigs others start l -> nth_error l j = Some b -> Qabs (k * quarters m start b - inject_Z (Z.of_nat j)) <= inject_Z (Z.of_nat j) * e.
Proof.
  intros l j b B NB. destruct (mf_last _ b B) as [C _]; [eapply nth_error_In; eauto|]. destruct (mf_ends _ B C) as [w [_ [_ [_ W]]]]. apply (W j b).
  rewrite nth_error_app1; auto. apply nth_error_Some. congruence.
Qed.
Lemma mf_count : forall l, beats_f_are m sigs others start l -> start < stop -> e * (k * quarters m start stop + 2) <= 1 # 2 ->
  let N := Qceiling (k * quarters m start stop) in (N - 1 <= Z.of_nat (List.length l) <= N + 1)%Z.
Proof.
  intros l B C S N. destruct (mf_ends _ B C) as [w [W1 [_ [_ W]]]]. assert (E0 : 0 <= e) by (apply slack_nonneg; auto; lra).
  set (X := k * quarters m start stop) in *. destruct (Qceiling_bounds X) as [B1 B2]. fold N in B1, B2.
  assert (K0 : 0 < k).
  { destruct (init_settled m sigs start k lo hi TM M DT SE BL L0) as [sig [q [r [f [_ [GD [RK _]]]]]]]. rewrite <- RK. apply rate_pos. auto. }
  assert (MONO : forall a b, start <= a -> a <= b -> k * quarters m start a <= k * quarters m start b).
  { intros a b A AB. rewrite <- (quarters_m_add m start a b TM A AB). pose proof (quarters_nonneg m a b TM AB). assert (0 <= k * quarters m a b) by (apply Qmult_le_0_compat; lra). setoid_replace (k * (quarters m start a + quarters m a b)) with (k * quarters m start a + k * quarters m a b) by ring. lra. }
  assert (X0 : 0 <= X) by (unfold X; apply Qmult_le_0_compat; [lra|apply quarters_nonneg; auto; lra]).
  set (n := List.length l) in *. destruct (W n w) as [W2 W3]. { unfold n. rewrite nth_error_app2 by lia. rewrite Nat.sub_diag. reflexivity. }
  pose proof (MONO stop w ltac:(lra) W1) as U1. fold X in U1. apply abs_le in W3. set (n' := inject_Z (Z.of_nat n)) in *. assert (NN : 0 <= n') by apply inj_nn.
  split.
  - assert (H : X - (1 # 2) <= n').
    { destruct (Qlt_le_dec n' (X + 2)) as [D|D]; [|lra]. assert (n' * e <= (X + 2) * e) by (apply Qmult_le_compat_r; lra). setoid_replace (e * (X + 2)) with ((X + 2) * e) in S by ring. lra. }
    assert (H2 : inject_Z (N - 2) < n') by (unfold Z.sub; rewrite inject_Z_plus; change (inject_Z (- (2))) with (-(2)); lra). unfold n' in H2. rewrite <- Zlt_Qlt in H2. lia.
  - destruct (nth_error l (n - 1)) as [b|] eqn:NB.
    2: { apply nth_error_None in NB. fold n in NB. assert (n = 0)%nat by lia. rewrite H. assert (H3 : inject_Z (-1) < inject_Z N) by (change (inject_Z (-1)) with (-(1)); lra). rewrite <- Zlt_Qlt in H3. cbn. lia. }
    assert (NL : (n - 1 < List.length l)%nat) by (apply nth_error_Some; congruence). fold n in NL.
    destruct (mf_last l b B (nth_error_In _ _ NB)) as [_ BS]. destruct (W (n - 1)%nat b) as [V1 V2]; [rewrite nth_error_app1; auto|]. apply abs_le in V2.
    pose proof (MONO b stop V1 ltac:(lra)) as U2. fold X in U2. set (p := inject_Z (Z.of_nat (n - 1))) in *. assert (PN : n' == p + 1) by (unfold n', p; replace (Z.of_nat n) with (Z.of_nat (n - 1) + 1)%Z by lia; rewrite inject_Z_plus; reflexivity).
    assert (P0 : 0 <= p) by apply inj_nn.
    assert (LT : b < stop -> k * quarters m start b <= X) by auto.
    assert (H : p <= X + (1 # 2) \/ X + 2 < p).
    { destruct (Qlt_le_dec (X + 2) p); auto. left. assert (p * e <= (X + 2) * e) by (apply Qmult_le_compat_r; lra). setoid_replace (e * (X + 2)) with ((X + 2) * e) in S by ring. lra. }
    assert (H' : p <= X + (1 # 2)).
    { destruct H as [H|H]; auto. exfalso. assert (Y : p * (1 - e) <= X) by (setoid_replace (p * (1 - e)) with (p - p * e) by ring; lra). assert ((X + 2) * (1 - e) <= p * (1 - e)) by (apply Qmult_le_compat_r; lra).
      setoid_replace ((X + 2) * (1 - e)) with (X + 2 - e * (X + 2)) in H0 by ring. lra. }
    assert (H2 : n' < inject_Z (N + 2)) by (rewrite inject_Z_plus; change (inject_Z 2) with 2; lra). unfold n' in H2. rewrite <- Zlt_Qlt in H2. lia.
Qed.
End multi.
