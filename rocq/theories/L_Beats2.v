(** Lemmas about M_Beats: the loop. *)
From Coq Require Import Sorted Permutation Lia Lqa Qfield Qround.
From Verif Require Import PyBase M_Beats S_Beats L_Base L_Beats.
Open Scope Q_scope.

Definition sig_list (sig : option tsig) : list tsig := match sig with Some s => [s] | None => [] end.
Record binv (st : bstate) : Prop := {
  bi_tempi : tempi_ok (b_qpm st) (b_rest st);
  bi_sorted : sortedt (b_rest st);
  bi_later : later (b_last st) (b_rest st);
  bi_good : good (b_sig st);
  bi_goods : forall s, In s (b_sigs st) -> good (Some s);
  bi_sigs : StronglySorted (fun a b => ts_time a <= ts_time b) (sig_list (b_sig st) ++ b_sigs st);
  bi_ahead : forall s, In s (b_sigs st) -> b_last st <= ts_time s;
  bi_none : b_sig st = None -> b_sigs st = [];
  bi_clear : clear_of_tempo (b_rest st) (sig_list (b_sig st) ++ b_sigs st) }.

Lemma snap_later : forall nb s rest, later nb rest -> gt_or_close nb (ts_time s) = true ->
  (forall c, In c rest -> fst c < ts_time s -> ~ close (fst c) (ts_time s)) -> later (ts_time s) rest.
Proof.
  intros nb s rest L G C c I. specialize (L c I). apply gtc_true in G as [G|[G1 G2]]; [lra|].
  destruct (Qlt_le_dec (fst c) (ts_time s)) as [X|X]; auto. exfalso. apply (C c I X). eapply close_between; eauto.
Qed.
Lemma SSQ_cons : forall (a : tsig) l, StronglySorted (fun a b => ts_time a <= ts_time b) (a :: l) ->
  (forall x, In x l -> ts_time a <= ts_time x) /\ StronglySorted (fun a b => ts_time a <= ts_time b) l.
Proof. intros a l H. apply StronglySorted_inv in H as [H1 H2]. rewrite Forall_forall in H2. auto. Qed.
Lemma SSQ_tail : forall l m, StronglySorted (fun a b => ts_time a <= ts_time b) (l ++ m) -> StronglySorted (fun a b => ts_time a <= ts_time b) m.
Proof. induction l as [|a l IH]; intros m H; cbn in H; auto. apply IH. apply SSQ_cons in H. apply H. Qed.

(** What one iteration does. *)
Inductive step_kind (st st' : bstate) (nb : Q) : Prop :=
| Plain : b_last st' = nb -> b_sig st' = b_sig st -> b_sigs st' = b_sigs st -> b_first st' = b_first st ->
    (forall s, b_sig st = Some s -> b_first st = true -> b_last st < ts_time s -> nb < ts_time s /\ ~ close nb (ts_time s)) ->
    step_kind st st' nb
| FirstSnap s : b_sig st = Some s -> b_first st = true -> b_last st < ts_time s -> gt_or_close nb (ts_time s) = true ->
    b_last st' = ts_time s -> b_sig st' = b_sig st -> b_sigs st' = b_sigs st -> b_first st' = true -> step_kind st st' nb
| NextSnap s nb2 : b_sigs st = s :: b_sigs st' -> gt_or_close nb2 (ts_time s) = true ->
    (nb2 = nb \/ (exists s0, b_sig st = Some s0 /\ b_first st = true /\ b_last st < ts_time s0 /\ gt_or_close nb (ts_time s0) = true /\ nb2 = ts_time s0)) ->
    (nb2 = nb -> forall s0, b_sig st = Some s0 -> b_first st = true -> b_last st < ts_time s0 -> nb < ts_time s0 /\ ~ close nb (ts_time s0) \/ nb = ts_time s0) ->
    b_last st' = ts_time s -> b_sig st' = Some s -> b_first st' = false -> step_kind st st' nb.

Lemma next_spec : forall st, binv st -> exists nb,
  let st' := next_beat st in
  binv st' /\ step_kind st st' nb /\ b_last st < nb /\
  incl (b_rest st') (b_rest st) /\ (b_qpm st' = b_qpm st \/ In (b_qpm st') (map snd (b_rest st))) /\
  rate (b_sig st) * quarters_from (b_qpm st) (b_rest st) (b_last st) nb == 1 /\
  (forall d, (forall x, x = b_qpm st \/ In x (map snd (b_rest st)) -> d <= 60 / bpm_of (b_sig st) x) -> b_last st + d <= nb) /\
  (forall a b, nb <= a -> quarters_from (b_qpm st) (b_rest st) a b == quarters_from (b_qpm st') (b_rest st') a b) /\
  (b_rest st = [] -> nb = b_last st + 60 / bpm_of (b_sig st) (b_qpm st)) /\
  (forall s r, b_sigs st' = s :: r -> b_sigs st' = b_sigs st -> b_last st' < ts_time s /\ ~ close (b_last st') (ts_time s)).
Proof.
  intros st [I1 I2 I3 I4 I5 I6 I7 I8 I9]. unfold next_beat.
  destruct (tempo_beat (bpm_of (b_sig st)) (b_last st) (b_qpm st) (b_rest st)) as [nb1 [q rest]] eqn:TB.
  destruct (tempo_beat_spec (b_sig st) (b_rest st) (b_last st) (b_qpm st) I4 I1 I2 I3 nb1 q rest TB) as [A1 [A2 [A3 [A4 [A5 [A6 [A7 [A8 A9]]]]]]]].
  assert (RN : b_rest st = [] -> nb1 = b_last st + 60 / bpm_of (b_sig st) (b_qpm st)).
  { intro E. unfold tempo_beat in TB. rewrite E in TB. injection TB as <- _ _. reflexivity. }
  exists nb1.
  assert (CL : forall s, In s (sig_list (b_sig st) ++ b_sigs st) -> forall c, In c rest -> fst c < ts_time s -> ~ close (fst c) (ts_time s)).
  { intros s S1 c C1. apply I9; auto. }
  assert (CL' : clear_of_tempo rest (sig_list (b_sig st) ++ b_sigs st)) by (intros c s C1 S1; apply CL; auto).
  (* the beat after a possible snap to the first signature *)
  assert (F : later (first_snap st nb1) rest /\ b_last st < first_snap st nb1 /\
    ((first_snap st nb1 = nb1 /\ forall s, b_sig st = Some s -> b_first st = true -> b_last st < ts_time s -> nb1 < ts_time s /\ ~ close nb1 (ts_time s)) \/
     (exists s, b_sig st = Some s /\ b_first st = true /\ b_last st < ts_time s /\ gt_or_close nb1 (ts_time s) = true /\ first_snap st nb1 = ts_time s))).
  { unfold first_snap. destruct (b_sig st) as [s|] eqn:ES; [|split; auto; split; auto; left; split; auto; intros; discriminate].
    destruct (b_first st && Qltb (b_last st) (ts_time s) && gt_or_close nb1 (ts_time s)) eqn:C.
    - apply andb_true_iff in C as [C C3]. apply andb_true_iff in C as [C1 C2]. apply Qltb_lt in C2. split; [|split; auto].
      + eapply snap_later; eauto. intros c IC. apply CL; auto. left. auto.
      + right. exists s. auto.
    - split; auto. split; auto. left. split; auto. intros s0 E0 F0 L0. injection E0 as <-. apply Qltb_lt in L0. rewrite F0, L0 in C. cbn [andb] in C. apply gtc_false. auto. }
  destruct F as [F1 [F2 F3]]. set (nb2 := first_snap st nb1) in *.
  destruct (b_sigs st) as [|s r] eqn:ES.
  - cbn [b_last b_sigs b_rest b_qpm b_sig b_first]. split; [constructor; cbn; auto; try (intros s []); try (intros; exact I8)|].
    split; [|split; [|split; [|split; [|split; [|split; [|split; [|split]]]]]]]; auto.
    + destruct F3 as [[F3 F4]|[s [F3 [F4 [F5 [F6 F7]]]]]].
      * apply Plain; auto.
      * apply (FirstSnap _ _ _ s); auto.
    + intros s r E. discriminate.
  - destruct (gt_or_close nb2 (ts_time s)) eqn:G; cbn [b_last b_sigs b_rest b_qpm b_sig b_first].
    + apply SSQ_tail in I6 as I6'. pose proof (SSQ_cons _ _ I6') as [O1 O2]. split; [|split; [|split; [|split; [|split; [|split; [|split; [|split; [|split]]]]]]]]; auto.
      * constructor; cbn [b_last b_sigs b_rest b_qpm b_sig b_first sig_list app]; auto.
        -- eapply snap_later; eauto. intros c IC. apply CL; auto. apply in_app_iff. right. left. auto.
        -- apply I5. left. auto.
        -- intros x X. apply I5. right. auto.
        -- intros; discriminate.
        -- intros c x C1 X1. apply CL; auto. apply in_app_iff. right. auto.
      * apply (NextSnap _ _ _ s nb2); cbn [b_last b_sigs b_rest b_qpm b_sig b_first]; auto.
        -- destruct F3 as [[F3 F4]|[s0 [F3 [F4 [F5 [F6 F7]]]]]]; auto. right. exists s0. auto.
        -- intros EN s0 E0 E1 E2. destruct F3 as [[F3 F4]|[s1 [F3 [F4 [F5 [F6 F7]]]]]].
           ++ left. apply F4; auto.
           ++ right. rewrite F3 in E0. injection E0 as <-. congruence.
      * intros x y _ E. exfalso. apply (f_equal (@List.length tsig)) in E. cbn in E. lia.
    + apply gtc_false in G as [G1 G2]. pose proof (SSQ_tail _ _ I6) as I6'. pose proof (SSQ_cons _ _ I6') as [O1 O2].
      split; [|split; [|split; [|split; [|split; [|split; [|split; [|split; [|split]]]]]]]]; auto.
      * constructor; cbn [b_last b_sigs b_rest b_qpm b_sig b_first]; auto. intros x X. destruct X as [<-|X]; [lra|]. specialize (O1 x X). lra.
      * destruct F3 as [[F3 F4]|[s0 [F3 [F4 [F5 [F6 F7]]]]]].
        -- apply Plain; cbn [b_last b_sigs b_rest b_qpm b_sig b_first]; auto.
        -- apply (FirstSnap _ _ _ s0); cbn [b_last b_sigs b_rest b_qpm b_sig b_first]; auto.
      * intros x y E _. injection E as <- <-. auto.
Qed.

(** ** the loop as a relation *)
Inductive runs (stop : Q) : bstate -> list Q -> Prop :=
| runs_end st : stop <= b_last st -> runs stop st []
| runs_go st l : b_last st < stop -> runs stop (next_beat st) l -> runs stop st (b_last st :: l).
Lemma runs_loop : forall stop st l, runs stop st l -> forall fuel, (List.length l <= fuel)%nat -> beat_loop fuel stop st = Some l.
Proof.
  intros stop st l R. induction R as [st H|st l H R IH]; intros fuel F.
  - destruct fuel; cbn [beat_loop]; apply Qltb_ge in H; rewrite H; auto.
  - cbn in F. destruct fuel as [|fuel]; [lia|]. cbn [beat_loop]. apply Qltb_lt in H. rewrite H. rewrite IH by lia. auto.
Qed.
Lemma loop_runs : forall stop fuel st l, beat_loop fuel stop st = Some l -> runs stop st l.
Proof.
  intros stop. induction fuel as [|fuel IH]; intros st l E; cbn [beat_loop] in E; destruct (Qltb (b_last st) stop) eqn:C.
  - discriminate.
  - injection E as <-. apply Qltb_ge in C. constructor; auto.
  - apply Qltb_lt in C. destruct (beat_loop fuel stop (next_beat st)) as [l'|] eqn:B; [|discriminate]. injection E as <-. constructor; auto.
  - injection E as <-. apply Qltb_ge in C. constructor; auto.
Qed.

(** ** termination *)
Definition slow (d : Q) (st : bstate) : Prop :=
  forall sg x, (sg = b_sig st \/ exists s, In s (b_sigs st) /\ sg = Some s) -> (x = b_qpm st \/ In x (map snd (b_rest st))) -> d <= 60 / bpm_of sg x.
Lemma slow_next : forall d st, binv st -> slow d st -> slow d (next_beat st).
Proof.
  intros d st I S0. destruct (next_spec st I) as [nb [_ [K [_ [IR [IQ _]]]]]]. intros sg x G X. apply S0.
  - destruct K as [K1 K2 K3 K4 K5|s K1 K2 K3 K4 K5 K6 K7 K8|s nb2 K1 K2 K3 K4 K5 K6 K7].
    + rewrite K2, K3 in G. auto. + rewrite K6, K7 in G. auto.
    + right. destruct G as [->|[s' [G ->]]]; [exists s|exists s']; rewrite K1; split; auto; [left; auto|right; auto].
  - destruct X as [->|X]; auto. right. apply in_map_iff in X as [c [<- C]]. apply in_map. auto.
Qed.
Lemma slow_exists : forall st, binv st -> exists d, 0 < d /\ slow d st.
Proof.
  intros st [[Q0 Q1] _ _ G GS _ _ _ _].
  assert (A : forall xs, (forall x, In x xs -> 0 < x) -> exists d, 0 < d /\ forall x, In x xs -> d <= x).
  { induction xs as [|x xs IH]; intro H; [exists 1; split; [lra|intros x []]|]. destruct IH as [d [D1 D2]]; [intros y Y; apply H; right; auto|]. assert (P : 0 < x) by (apply H; left; auto).
    exists (Qminb d x). destruct (Qminb_spec d x) as [[L ->]|[L ->]]; (split; [lra|]); intros y [<-|Y]; try lra; auto. specialize (D2 y Y). lra. }
  destruct (A (flat_map (fun sg => map (fun x => 60 / bpm_of sg x) (b_qpm st :: map snd (b_rest st))) (b_sig st :: map Some (b_sigs st)))) as [d [D1 D2]].
  { intros x X. apply in_flat_map in X as [sg [X1 X2]]. apply in_map_iff in X2 as [q [<- X2]].
    assert (0 < q). { destruct X2 as [<-|X2]; auto. apply in_map_iff in X2 as [c [<- C]]. auto. }
    assert (good sg). { destruct X1 as [<-|X1]; auto. apply in_map_iff in X1 as [s [<- C]]. auto. }
    apply Qlt_shift_div_l; [|lra]. rewrite bpm_rate. apply Qmult_lt_0_compat; auto. apply rate_pos. auto. }
  exists d. split; auto. intros sg x SG X. apply D2. apply in_flat_map. exists sg. split.
  - destruct SG as [->|[s [I ->]]]; [left; auto|right; apply in_map; auto].
  - apply in_map_iff. exists x. split; auto. destruct X as [->|X]; [left|right]; auto.
Qed.
Definition snaps (st : bstate) : nat :=
  (List.length (b_sigs st) + match b_sig st with Some s => if b_first st && Qltb (b_last st) (ts_time s) then 1 else 0 | None => 0 end)%nat.
Lemma advance : forall d st, binv st -> slow d st -> 0 < d ->
  b_last st <= b_last (next_beat st) /\
  ((snaps (next_beat st) < snaps st)%nat \/ ((snaps (next_beat st) <= snaps st)%nat /\ b_last st + d <= b_last (next_beat st))).
Proof.
  intros d st I SL D. destruct (next_spec st I) as [nb [_ [K [L [_ [_ [_ [DD _]]]]]]]]. specialize (DD d (fun x X => SL _ x (or_introl eq_refl) X)).
  destruct K as [K1 K2 K3 K4 K5|s K1 K2 K3 K4 K5 K6 K7 K8|s nb2 K1 K2 K3 K4 K5 K6 K7].
  - rewrite K1. split; [lra|]. right. split; [|lra]. unfold snaps. rewrite K2, K3, K4. destruct (b_sig st) as [s|]; auto. destruct (b_first st); auto. cbn [andb].
    destruct (Qltb (b_last (next_beat st)) (ts_time s)) eqn:A; destruct (Qltb (b_last st) (ts_time s)) eqn:B; try lia. apply Qltb_lt in A. rewrite K1 in A. apply Qltb_ge in B. lra.
  - split; [rewrite K5; lra|]. left. unfold snaps. rewrite K7, K6, K1, K8, K2. cbn [andb]. apply Qltb_lt in K3. rewrite K3. rewrite K5. assert (X : Qltb (ts_time s) (ts_time s) = false) by (apply Qltb_ge; lra). rewrite X. lia.
  - split; [rewrite K5; apply (bi_ahead st I); rewrite K1; left; auto|]. left. unfold snaps. rewrite K7, K6, K1. cbn [andb List.length]. lia.
Qed.
Lemma terminates : forall d stop, 0 < d -> forall n k m st, (k + m <= n)%nat -> binv st -> slow d st -> (snaps st <= k)%nat -> stop - b_last st <= inject_Z (Z.of_nat m) * d -> exists l, runs stop st l.
Proof.
  intros d stop D. induction n as [|n IH]; intros k m st N I SL K M; destruct (Qlt_le_dec (b_last st) stop) as [C|C]; try (exists []; constructor; auto; fail).
  - assert (m = O) by lia. subst m. cbn in M. change (inject_Z 0) with 0 in M. lra.
  - destruct (next_spec st I) as [_ [I' _]]. pose proof (slow_next d st I SL) as SL'. destruct (advance d st I SL D) as [A1 [A2|[A2 A3]]].
    + destruct k as [|k]; [lia|]. destruct (IH k m (next_beat st)) as [l R]; auto; try lia; [lra|]. exists (b_last st :: l). constructor; auto.
    + destruct m as [|m]; [change (inject_Z (Z.of_nat 0)) with 0 in M; lra|]. destruct (IH k m (next_beat st)) as [l R]; auto; try lia.
      { rewrite Nat2Z.inj_succ in M. unfold Z.succ in M. rewrite inject_Z_plus in M. change (inject_Z 1) with 1 in M. lra. }
      exists (b_last st :: l). constructor; auto.
Qed.
Lemma runs_exist : forall stop st, binv st -> exists l, runs stop st l.
Proof.
  intros stop st I. destruct (slow_exists st I) as [d [D SL]].
  assert (M : exists m, stop - b_last st <= inject_Z (Z.of_nat m) * d).
  { exists (Z.to_nat (Qceiling ((stop - b_last st) / d))). set (x := (stop - b_last st) / d). assert (E : stop - b_last st == x * d) by (unfold x; field; lra). rewrite E. apply Qmult_le_compat_r; [|lra].
    pose proof (Qle_ceiling x) as L. eapply Qle_trans; [exact L|]. rewrite <- Zle_Qle. lia. }
  destruct M as [m M]. apply (terminates d stop D (snaps st + m) (snaps st) m); auto.
Qed.

(** ** order *)
Lemma runs_order : forall stop st l, runs stop st l -> binv st -> StronglySorted Qle l /\ (forall x, In x l -> b_last st <= x < stop) /\ (b_last st < stop -> exists r, l = b_last st :: r).
Proof.
  intros stop st l R. induction R as [st H|st l H R IH]; intro I.
  - split; [constructor|]. split; [intros x []|]. intro; lra.
  - destruct (next_spec st I) as [_ [I' _]]. destruct (IH I') as [A1 [A2 A3]]. destruct (slow_exists st I) as [d [D SL]]. destruct (advance d st I SL D) as [B1 _].
    split; [|split].
    + constructor; auto. apply Forall_forall. intros x X. specialize (A2 x X). lra.
    + intros x [<-|X]; [split; lra|]. specialize (A2 x X). lra.
    + intros _. exists l. auto.
Qed.
(** signature changes at different times *)
Definition strict (st : bstate) : Prop :=
  StronglySorted (fun a b => ts_time a < ts_time b) (sig_list (b_sig st) ++ b_sigs st) /\ forall s, In s (b_sigs st) -> b_last st < ts_time s.
Lemma strict_next : forall st, binv st -> strict st -> strict (next_beat st) /\ b_last st < b_last (next_beat st).
Proof.
  intros st I [S1 S2]. destruct (next_spec st I) as [nb [I' [K [L [_ [_ [_ [_ [_ [_ HD]]]]]]]]]].
  assert (T : forall l (m : list tsig), StronglySorted (fun a b => ts_time a < ts_time b) (l ++ m) -> StronglySorted (fun a b => ts_time a < ts_time b) m).
  { induction l as [|a l IH]; intros m H; cbn in H; auto. apply IH. apply StronglySorted_inv in H. apply H. }
  assert (AH : b_sigs (next_beat st) = b_sigs st -> forall s, In s (b_sigs (next_beat st)) -> b_last (next_beat st) < ts_time s).
  { intros E s IN. destruct (b_sigs (next_beat st)) as [|s0 r] eqn:ES; [destruct IN|]. destruct (HD s0 r eq_refl E) as [X _]. destruct IN as [<-|IN]; auto.
    rewrite <- E in S1. apply T in S1. apply StronglySorted_inv in S1 as [_ S1]. rewrite Forall_forall in S1. specialize (S1 s IN). lra. }
  destruct K as [K1 K2 K3 K4 K5|s K1 K2 K3 K4 K5 K6 K7 K8|s nb2 K1 K2 K3 K4 K5 K6 K7].
  - split; [split; [rewrite K2, K3; auto|auto]|rewrite K1; lra].
  - split; [split; [rewrite K6, K7; auto|auto]|rewrite K5; lra].
  - split; [split|].
    + rewrite K6. cbn [sig_list app]. rewrite K1 in S1. apply T in S1. auto.
    + intros x X. rewrite K5. rewrite K1 in S1. apply T in S1. apply StronglySorted_inv in S1 as [_ S1]. rewrite Forall_forall in S1. auto.
    + rewrite K5. apply S2. rewrite K1. left. auto.
Qed.
Lemma runs_strict : forall stop st l, runs stop st l -> binv st -> strict st -> StronglySorted Qlt l.
Proof.
  intros stop st l R. induction R as [st H|st l H R IH]; intros I S0; constructor.
  - destruct (next_spec st I) as [_ [I' _]]. apply IH; auto. apply strict_next; auto.
  - destruct (next_spec st I) as [_ [I' _]]. destruct (strict_next st I S0) as [_ L]. destruct (runs_order _ _ _ R I') as [_ [A _]]. apply Forall_forall. intros x X. specialize (A x X). lra.
Qed.
