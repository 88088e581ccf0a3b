(** Lemmas about M_BeatsF: the loop over a tempo map, with rounding. *)
From Coq Require Import Sorted Permutation Lia Lqa Qfield Qabs Qpower Qround.
From Verif Require Import PyBase M_Float M_Beats M_BeatsF S_Beats S_Snap S_ShiftF S_BeatsF S_BeatsF2 L_Base L_Note L_Float L_Float2 L_Snap L_NoteF L_NoteF2 L_UtilsF L_UtilsF2 L_UtilsF3 P_Rounding L_ShiftF L_Beats L_Beats2 L_Beats3 L_BeatsF L_BeatsF2 L_BeatsF3 L_BeatsF7 L_BeatsF8.
Open Scope Q_scope.

Lemma inj_nn : forall n, 0 <= inject_Z (Z.of_nat n).
Proof. intro n. change 0 with (inject_Z 0). rewrite <- Zle_Qle. lia. Qed.
Section run.
Variables (sig : option tsig) (lo hi start stop : Q) (n : nat) (Phi : Q -> Q).
Let T := stop + 8 * hi.
Let E := u * T / lo.
Let G := E * hi / lo.
Let e := 256 * G * (inject_Z (Z.of_nat n) + 2).
Hypotheses (GD : good sig) (L0 : 0 < lo) (LH : lo <= hi) (N0 : 0 <= start) (SM : e <= 1 # 4)
  (SS : forall s, sig = Some s -> ts_time s <= start)
  (SL : forall x y, x <= y -> (y - x) / hi <= Phi y - Phi x /\ Phi y - Phi x <= (y - x) / lo).
Definition rinv (st : bstate) : Prop :=
  b_sigs st = [] /\ b_sig st = sig /\ start <= b_last st /\ (List.length (b_rest st) <= n)%nat /\
  exists tc, rep sig lo hi Phi (b_qpm st) (b_rest st) tc /\ later (b_last st) (b_rest st) /\ tc <= b_last st + 166 * (E * hi).
Lemma rinv_next : forall st, rinv st -> b_last st < stop -> rinv (next_beat_f st) /\
  Qabs (Phi (b_last (next_beat_f st)) - Phi (b_last st) - 1) <= e /\ b_last st + lo / 2 <= b_last (next_beat_f st).
Proof.
  intros [last q rest first sg sigs] [I1 [I2 [I3 [I4 [tc [I5 [I6 I7]]]]]]] LS. cbn [b_last b_qpm b_rest b_first b_sig b_sigs] in *. subst sigs sg.
  assert (T1 : 0 < T) by (unfold T; lra). assert (EE : u * T == E * lo) by (unfold E; field; lra). assert (GG : G * lo == E * hi) by (unfold G; field; lra).
  assert (E0 : 0 <= E) by (unfold E; apply Qle_shift_div_l; auto; setoid_replace (0 * lo) with 0 by ring; apply Qmult_le_0_compat; [discriminate|lra]).
  pose proof (EG lo hi E G L0 LH E0 GG) as EG1. pose proof (inj_nn n) as NN.
  set (k := inject_Z (Z.of_nat (List.length rest))). pose proof (inj_nn (List.length rest)) as KN. fold k in KN.
  assert (K1 : k <= inject_Z (Z.of_nat n)) by (unfold k; rewrite <- Zle_Qle; lia). unfold e in SM. set (n' := inject_Z (Z.of_nat n)) in *.
  assert (GN : E * k <= G * n'). { apply Qle_trans with (G * k); [apply Qmult_le_compat_r; lra|rewrite !(Qmult_comm G); apply Qmult_le_compat_r; lra]. }
  assert (G0 : 0 <= G * n') by (apply Qmult_le_0_compat; lra). setoid_replace (256 * G * (n' + 2)) with (256 * (G * n') + 512 * G) in SM by ring.
  unfold next_beat_f. cbn [b_last b_qpm b_rest b_first b_sig b_sigs]. destruct (tempo_beat_f (bpm_of_f sig) last q rest) as [y [q2 rest2]] eqn:TB.
  destruct (tempo_near sig lo hi T E G last Phi GD L0 LH ltac:(lra) ltac:(unfold T; lra) EE E0 ltac:(lra) GG SL tc q rest y q2 rest2 I5 I6 I7 ltac:(lra)) as [J1 [J2 J3]]; auto.
  { fold k. setoid_replace (128 * E * k) with (128 * (E * k)) by ring. lra. }
  fold k in J3. setoid_replace (128 * E * k) with (128 * (E * k)) in J3 by ring.
  assert (SN : first_snap_f {| b_last := last; b_qpm := q; b_rest := rest; b_first := first; b_sig := sig; b_sigs := [] |} y = y).
  { unfold first_snap_f. cbn [b_last b_qpm b_rest b_first b_sig b_sigs]. clear - I3 SS. destruct sig as [s|] eqn:SE; auto. specialize (SS s eq_refl). replace (Qltb last (ts_time s)) with false by (symmetry; apply Qltb_ge; lra). rewrite Bool.andb_false_r. reflexivity. }
  rewrite SN. cbn [b_last b_qpm b_rest b_first b_sig b_sigs].
  assert (Y : Qabs (Phi y - Phi last - 1) <= 338 * G + 128 * (E * k)) by (setoid_replace (Phi y - Phi last - 1) with (Phi y - (Phi last + 1)) by ring; auto).
  pose proof Y as Y'. apply abs_le in Y'.
  assert (GAP : last + lo / 2 <= y).
  { destruct (Qlt_le_dec y last) as [C|C].
    - exfalso. destruct (SL y last ltac:(lra)) as [S1 _]. assert (0 <= (last - y) / hi) by (apply Qle_shift_div_l; lra). set (v := (last - y) / hi) in *. clearbody v. lra.
    - destruct (SL last y C) as [_ S2]. assert (X : 1 # 2 <= (y - last) / lo) by (set (v := (y - last) / lo) in *; clearbody v; lra).
      assert (X2 : (1 # 2) * lo <= (y - last) / lo * lo) by (apply Qmult_le_compat_r; lra). setoid_replace ((y - last) / lo * lo) with (y - last) in X2 by (field; lra). setoid_replace (lo / 2) with ((1 # 2) * lo) by field. lra. }
  assert (lo / 2 == (1 # 2) * lo) by field.
  split; [|split; auto].
  - split; [reflexivity|]. split; [reflexivity|]. cbn [b_last b_qpm b_rest b_first b_sig b_sigs]. split; [lra|]. split; [lia|]. destruct J1 as [tc2 J1]. exists tc2. tauto.
  - unfold e. fold n'. setoid_replace (256 * G * (n' + 2)) with (256 * (G * n') + 512 * G) by ring. lra.
Qed.
Lemma rinv_runs : forall m st, rinv st -> stop - b_last st <= inject_Z (Z.of_nat m) * (lo / 2) ->
  exists l, runsf stop st l /\ StronglySorted Qlt l /\ (forall x, In x l -> b_last st <= x).
Proof.
  induction m as [|m IH]; intros st I LM.
  - exists []. split; [apply RF0; change (inject_Z (Z.of_nat 0)) with 0 in LM; lra|split; [constructor|intros x []]].
  - destruct (Qlt_le_dec (b_last st) stop) as [L1|L1]; [|exists []; split; [apply RF0; auto|split; [constructor|intros x []]]].
    destruct (rinv_next st I L1) as [I' [_ GAP]]. assert (H2 : lo / 2 == (1 # 2) * lo) by field. destruct (IH (next_beat_f st) I') as [l [R [SO LO]]].
    { rewrite Nat2Z.inj_succ in LM. unfold Z.succ in LM. rewrite inject_Z_plus in LM. change (inject_Z 1) with 1 in LM. lra. }
    exists (b_last st :: l). split; [apply RFS; auto|]. split; [constructor; auto; rewrite Forall_forall; intros x X; specialize (LO x X); lra|]. intros x [<-|X]; [lra|]. specialize (LO x X). lra.
Qed.
(** ... with the first time past the end. *)
Lemma rinv_pairs : forall st l, runsf stop st l -> rinv st -> b_last st < stop -> exists w, stop <= w /\ hd_error (l ++ [w]) = Some (b_last st) /\
  forall x y, consecutive (l ++ [w]) x y -> Qabs (Phi y - Phi x - 1) <= e /\ x + lo / 2 <= y /\ start <= x.
Proof.
  intros st l R. induction R as [st H|st l H R IH]; intros I C; [lra|]. destruct (rinv_next st I H) as [I' [A1 A2]].
  destruct (Qlt_le_dec (b_last (next_beat_f st)) stop) as [C'|C'].
  - destruct (IH I' C') as [w [W1 [W2 W3]]]. exists w. split; auto. split; [reflexivity|]. intros x y [l1 [l2 EQ]]. destruct l1 as [|z l1]; cbn [app] in EQ.
    + injection EQ as <- EQ. rewrite EQ in W2. cbn in W2. injection W2 as ->. split; auto. split; auto. apply I.
    + injection EQ as <- EQ. apply W3. exists l1, l2. auto.
  - inversion R; subst; [|lra]. exists (b_last (next_beat_f st)). split; auto. split; [reflexivity|]. intros x y [l1 [l2 EQ]]. cbn [app] in EQ. destruct l1 as [|z [|z' l1]]; cbn [app] in EQ.
    + injection EQ as <- <- _. split; auto. split; auto. apply I.
    + discriminate.
    + destruct l1; discriminate.
Qed.
End run.

Lemma skip_length : forall start rest q0 q r, skip_tempo start q0 rest = (q, r) -> (List.length r <= List.length rest)%nat /\ (q = q0 \/ In q (map snd rest)) /\ incl r rest.
Proof.
  intros start. induction rest as [|[t q1] r0 IH]; intros q0 q r S; cbn [skip_tempo] in S.
  - injection S as <- <-. split; auto. split; auto. apply incl_refl.
  - destruct (Qltb t start).
    + destruct (IH _ _ _ S) as [A [B C]]. split; [cbn; lia|]. split; [right; cbn; destruct B as [->|B]; auto|]. intros x I. right. auto.
    + injection S as <- <-. split; auto. split; auto. apply incl_refl.
Qed.
Lemma init_settled : forall m sigs start k lo hi, tempo_map m -> meters sigs -> distinct_times sigs -> settled sigs start k -> beat_lengths m k lo hi -> 0 < lo ->
  exists sig q r f, beats_init m (sort_sigs sigs) start = Ok (mkBS start q r f sig []) /\ good sig /\ rate sig == k /\ (forall s, sig = Some s -> ts_time s <= start) /\
    in_range sig lo hi q r /\ sortedt r /\ later start r /\ (List.length r < List.length m)%nat /\ (forall a b, start <= a -> quarters m a b == quarters_from q r a b).
Proof.
  intros m sigs start k lo hi [NE [ST TP]] M DT [S1 [S2 S3]] BL L0. destruct m as [|[t0 q0] rest]; [congruence|]. cbn [beats_init].
  destruct (skip_tempo start q0 rest) as [q r] eqn:SK. pose proof (StronglySorted_inv ST) as [ST1 _].
  destruct (skip_tempo_spec start rest q0 q r) as [B1 [B2 [B3 [B4 B5]]]]; auto.
  { split; [apply (TP (t0, q0)); left; auto|intros c I; apply TP; right; auto]. }
  destruct (skip_length _ _ _ _ _ SK) as [L1 [L2 L3]].
  assert (RANGE : forall sig, good sig -> rate sig == k -> in_range sig lo hi q r).
  { intros sig GD RK x X. assert (I : exists c, In c ((t0, q0) :: rest) /\ snd c = x).
    { destruct X as [->|X].
      - destruct L2 as [->|L2]; [exists (t0, q0); cbn; auto|]. apply in_map_iff in L2 as [c [C1 C2]]. exists c. cbn; auto.
      - apply in_map_iff in X as [c [C1 C2]]. exists c. split; auto. right. apply L3. auto. }
    destruct I as [c [C1 <-]]. split; [apply TP; auto|]. destruct (BL c C1) as [X1 X2]. rewrite bpm_rate, RK. auto. }
  pose proof (sort_sorted sigs) as SO. pose proof (sort_perm sigs) as PE. destruct (sort_sigs sigs) as [|s ss] eqn:SG.
  - apply Permutation_sym, Permutation_nil in PE. specialize (S3 PE). exists None, q, r, true. assert (RK : rate None == k) by (rewrite S3; reflexivity).
    split; [reflexivity|]. split; [exact I|]. split; auto. split; [discriminate|]. split; [apply RANGE; [exact I|auto]|]. split; auto. split; auto. split; [cbn; lia|]. intros a b A. cbn [quarters]. auto.
  - destruct (skip_sigs start true s ss) as [f [s' r']] eqn:KS. destruct (skip_sigs_spec start ss true s f s' r' SO KS) as [l [D1 [D2 D3]]].
    assert (R0 : r' = []). { destruct r' as [|z r']; auto. exfalso. specialize (D2 z (or_introl eq_refl)). assert (In z sigs) by (apply (Permutation_in z (Permutation_sym PE)); rewrite D1; apply in_or_app; right; right; left; auto). specialize (S1 z H). lra. }
    subst r'. assert (IS : In s' sigs) by (apply (Permutation_in s' (Permutation_sym PE)); rewrite D1; apply in_or_app; right; left; auto).
    assert (GD : good (Some s')) by (apply M; auto).
    assert (IF : in_force sigs s' start).
    { split; auto. left. split; auto. intros z Z _. apply (Permutation_in z PE) in Z. rewrite D1 in SO, Z. apply in_app_iff in Z as [Z|[<-|[]]]; [|lra].
      clear - SO Z. induction l as [|a l IH]; [destruct Z|]. cbn [app] in SO. apply SSQ_cons in SO as [A B]. destruct Z as [<-|Z]; [apply A; apply in_or_app; right; left; auto|apply IH; auto]. }
    assert (RK : rate (Some s') == k) by (apply rate_spec; auto).
    exists (Some s'), q, r, f. split; [reflexivity|]. split; auto. split; auto. split; [intros z Z; injection Z as <-; auto|]. split; [apply RANGE; auto|]. split; auto. split; auto. split; [cbn; lia|]. intros a b A. cbn [quarters]. auto.
Qed.
Lemma slack_eq : forall stop lo hi n, 0 < lo -> slack stop lo hi n == 256 * (u * (stop + 8 * hi) / lo * hi / lo) * (inject_Z (Z.of_nat n) + 2).
Proof. intros stop lo hi n L0. unfold slack. rewrite U_eq. change (inject_Z (2 ^ 53)) with (9007199254740992 # 1). field. lra. Qed.
Lemma multi_f : forall m sigs others start k lo hi, tempo_map m -> meters sigs -> distinct_times sigs -> settled sigs start k -> beat_lengths m k lo hi -> 0 < lo -> lo <= hi -> 0 <= start ->
  let e := slack (piece_end m (sort_sigs sigs) others) lo hi (List.length m - 1) in e <= 1 # 4 ->
  exists l, beats_f_are m sigs others start l /\ StronglySorted Qlt l /\
    (start < piece_end m (sort_sigs sigs) others -> exists w, piece_end m (sort_sigs sigs) others <= w /\ hd_error (l ++ [w]) = Some start /\
      forall x y, consecutive (l ++ [w]) x y -> Qabs (k * quarters m x y - 1) <= e /\ x + lo / 2 <= y /\ start <= x).
Proof.
  intros m sigs others start k lo hi TM M DT SE BL L0 LH N0 e SM.
  destruct (init_settled m sigs start k lo hi TM M DT SE BL L0) as [sig [q [r [f [IN [GD [RK [SS [IR [ST [LT [LEN QQ]]]]]]]]]]]].
  set (stop := piece_end m (sort_sigs sigs) others) in *. set (n := (List.length m - 1)%nat) in *.
  set (Phi := beats_from sig q r start). unfold e in *. rewrite (slack_eq stop lo hi n L0) in *.
  assert (SL : forall x y, x <= y -> (y - x) / hi <= Phi y - Phi x /\ Phi y - Phi x <= (y - x) / lo) by (intros x y XY; apply quarters_slope; auto).
  assert (AD : forall y z, start <= y -> y <= z -> Phi z - Phi y == beats_from sig q r y z).
  { intros y z A B. unfold Phi, beats_from. rewrite <- (quarters_add r q start y z ST A B). ring. }
  pose proof (beats_f_runs m sigs others start) as BR. fold stop in BR.
  destruct (Qlt_le_dec start stop) as [C|C].
  2: { exists []. split; [apply (BR [] _ IN), RF0; cbn; lra|]. split; [constructor|]. intros X. lra. }
  assert (I : rinv sig lo hi start stop n Phi (mkBS start q r f sig [])).
  { split; [reflexivity|]. split; [reflexivity|]. split; [cbn; lra|]. split; [cbn [b_rest]; unfold n; lia|]. cbn [b_last b_qpm b_rest].
    exists start. split; [split; auto|]. split; auto. assert (0 <= u * (stop + 8 * hi) / lo * hi) by (apply Qmult_le_0_compat; [apply Qle_shift_div_l; auto; setoid_replace (0 * lo) with 0 by ring; apply Qmult_le_0_compat; [discriminate|lra]|lra]). lra. }
  destruct (rinv_runs sig lo hi start stop n Phi GD L0 LH N0 SM SS SL (Z.to_nat (Qceiling ((stop - start) / (lo / 2)))) _ I) as [l [R [SO _]]].
  { cbn [b_last]. apply ceil_steps. apply Qlt_shift_div_l; lra. }
  exists l. split; [apply (BR l _ IN); exact R|]. split; auto. intros _.
  destruct (rinv_pairs sig lo hi start stop n Phi GD L0 LH N0 SM SS SL _ l R I C) as [w [W1 [W2 W3]]]. exists w. split; auto. split; auto. intros x y XY. destruct (W3 x y XY) as [P1 [P2 P3]]. split; auto.
  assert (lo / 2 == (1 # 2) * lo) by field. rewrite (AD x y P3) in P1 by lra. unfold beats_from in P1. rewrite RK, <- (QQ x y P3) in P1. eapply Qle_trans; [exact P1|]. apply Qle_lteq. right. symmetry. apply slack_eq. auto.
Qed.
(** Counting along a list whose neighbours are one apart, up to [e]. *)
Lemma quarters_m_add : forall m a x y, tempo_map m -> a <= x -> x <= y -> quarters m a x + quarters m x y == quarters m a y.
Proof. intros m a x y [NE [ST _]] A B. destruct m as [|[t q] r]; [congruence|]. cbn [quarters]. apply quarters_add; auto. apply (StronglySorted_inv ST). Qed.
Lemma drift_list : forall m k e lo start l, tempo_map m -> 0 < lo -> 0 <= e -> hd_error l = Some start ->
  (forall x y, consecutive l x y -> Qabs (k * quarters m x y - 1) <= e /\ x + lo / 2 <= y /\ start <= x) ->
  forall j b, nth_error l j = Some b -> start <= b /\ Qabs (k * quarters m start b - inject_Z (Z.of_nat j)) <= inject_Z (Z.of_nat j) * e.
Proof.
  intros m k e lo start l TM L0 E0 HD W. induction j as [|j IH]; intros b NB.
  - destruct l as [|x l]; [discriminate|]. cbn in HD, NB. injection HD as ->. injection NB as <-. split; [lra|]. assert (Q0 : quarters m start start == 0). { destruct m as [|[t q] r]; [reflexivity|]. cbn [quarters]. apply quarters_empty. reflexivity. }
    rewrite Q0. change (inject_Z (Z.of_nat 0)) with 0. setoid_replace (k * 0 - 0) with 0 by ring. cbn. lra.
  - destruct (nth_error l j) as [a|] eqn:NA; [|apply nth_error_None in NA; assert (nth_error l (S j) <> None) by congruence; apply nth_error_Some in H; lia].
    destruct (IH a eq_refl) as [I1 I2]. assert (C : consecutive l a b).
    { clear - NA NB. revert j NA NB. induction l as [|z l IH]; intros j NA NB; [destruct j; discriminate|]. destruct j as [|j].
      - cbn in NA, NB. injection NA as <-. destruct l as [|w l]; [discriminate|]. cbn in NB. injection NB as <-. exists [], l. reflexivity.
      - destruct (IH j NA NB) as [l1 [l2 ->]]. exists (z :: l1), l2. reflexivity. }
    destruct (W a b C) as [W1 [W2 W3]]. assert (lo / 2 == (1 # 2) * lo) by field. split; [lra|]. rewrite <- (quarters_m_add m start a b TM I1) by lra.
    rewrite Nat2Z.inj_succ. unfold Z.succ. rewrite inject_Z_plus. change (inject_Z 1) with 1. set (j' := inject_Z (Z.of_nat j)) in *. set (qa := quarters m start a) in *. set (qb := quarters m a b) in *.
    setoid_replace (k * (qa + qb) - (j' + 1)) with ((k * qa - j') + (k * qb - 1)) by ring. eapply Qle_trans; [apply Qabs_triangle|]. setoid_replace ((j' + 1) * e) with (j' * e + e) by ring. apply Qplus_le_compat; auto.
Qed.
