(** Reading a file with one tempo. *)
From Coq Require Import Lqa Lia Sorted Permutation Qabs Qround.
From Verif Require Import PyBase L_Base M_SortedDict M_Note L_Note M_Events M_Seq S_Seq M_Seqs M_Ticks S_Ticks L_Ticks M_Load S_Load L_Load L_Load2 L_Load5 M_Write S_Write M_Meta S_Meta L_Meta M_Song S_Song L_Song L_Song2 L_Song3 L_Song4 L_Song5 L_Song7 L_Song8.
From Verif Require Import M_Reader S_Reader L_Reader L_Reader3 L_Reader4 M_Pipe S_Pipe L_Pipe L_Pipe2.
From Verif Require L_Beats5.
From Verif Require Import S_Convert2 L_Convert8.
Open Scope Z_scope.

Lemma at_tick_const : forall (evs : list (Z * Z)) us j d, 0 <= j -> (forall e, In e evs -> snd e = us) -> at_tick evs 0 d = us -> at_tick evs j d = us.
Proof.
  intros evs us j. unfold at_tick. induction evs as [|[t v] evs IH]; intros d J A E; cbn [fold_left fst snd] in *; auto.
  assert (v = us) by (apply (A (t, v)); left; auto). subst v.
  destruct (Z.leb_spec t 0); destruct (Z.leb_spec t j); try lia; apply IH; auto; try (intros; apply A; right; auto; fail).
  clear - A. assert (B : forall e, In e evs -> snd e = us) by (intros; apply A; right; auto). clear A. induction evs as [|e evs IH]; cbn [fold_left]; auto.
  rewrite (B e (or_introl eq_refl)). destruct (fst e <=? 0); apply IH; intros; apply B; right; auto.
Qed.
Lemma scale_us : forall us r, 0 < us -> 0 < r -> exists c, scale_of_tempo us r = Ok c /\ (c == inject_Z us / (1000000 * inject_Z r))%Q.
Proof.
  intros us r U R. pose proof (inject_pos' us U). pose proof (inject_pos' r R). unfold scale_of_tempo, scale_of_bpm. destruct (Z.eqb_spec us 0); [lia|]. cbv zeta.
  destruct (Qeq_bool _ 0) eqn:D.
  - apply Qeq_bool_iff in D. exfalso. assert (0 < 60000000 / inject_Z us * inject_Z r)%Q by (apply Qmult_lt_0_compat; auto; apply Qlt_shift_div_l; lra). lra.
  - eexists. split; [reflexivity|]. field. split; lra.
Qed.
Lemma loop_one : forall r us evs c, 0 < r -> 0 < us -> (c == inject_Z us / (1000000 * inject_Z r))%Q -> (forall e, In e evs -> snd e = us) ->
  exists c', load_tempo_loop r evs [(0, c)] = Ok [(0, c')] /\ (c' == inject_Z us / (1000000 * inject_Z r))%Q.
Proof.
  intros r us evs. induction evs as [|[t v] evs IH]; intros c R U C A; cbn [load_tempo_loop]; [eauto|].
  assert (v = us) by (apply (A (t, v)); left; auto). subst v. destruct (scale_us us r U R) as (c' & E & C'). rewrite E. cbn [bind].
  assert (B : forall e, In e evs -> snd e = us) by (intros; apply A; right; auto). destruct (Z.eqb_spec t 0); [apply IH; auto|]. cbn [rev app].
  destruct (Qeq_bool c' c) eqn:Q; [apply IH; auto|]. apply Qeq_bool_neq in Q. exfalso. apply Q. rewrite C, C'. reflexivity.
Qed.
Lemma load_one : forall r us evs, 0 < r -> 0 < us -> tempo_events evs -> (forall e, In e evs -> snd e = us) -> at_tick evs 0 500000 = us ->
  exists c, load_tempo r evs = Ok [(0, c)] /\ (c == inject_Z us / (1000000 * inject_Z r))%Q.
Proof.
  intros r us evs R U TE A E. unfold load_tempo. assert (scale_of_bpm 120 r = Ok (60 / (120 * inject_Z r))%Q) as ->.
  { unfold scale_of_bpm. cbv zeta. pose proof (inject_pos' r R). destruct (Qeq_bool _ 0) eqn:D; auto. apply Qeq_bool_iff in D. exfalso. lra. }
  cbn [bind]. pose proof (inject_pos' r R). destruct evs as [|[t v] evs].
  - cbn in E. subst us. cbn [load_tempo_loop]. eexists. split; [reflexivity|]. change (inject_Z 500000) with 500000%Q. field. lra.
  - assert (v = us) by (apply (A (t, v)); left; auto). subst v. destruct (Z.eq_dec t 0) as [->|N].
    + cbn [load_tempo_loop]. destruct (scale_us us r U R) as (c & -> & C). cbn [bind]. change (0 =? 0) with true. cbn iota. apply loop_one; auto. intros; apply A; right; auto.
    + assert (us = 500000).
      { destruct TE as [SS P]. pose proof (proj1 (P _ (or_introl eq_refl))) as T0. cbn [fst] in T0. apply StronglySorted_inv in SS as [_ SS]. rewrite Forall_forall in SS.
        rewrite <- E. unfold at_tick. cbn [fold_left fst snd]. destruct (Z.leb_spec t 0); [lia|]. clear - SS T0 N. induction evs as [|e evs IH]; cbn [fold_left]; auto.
        pose proof (SS e (or_introl eq_refl)) as X. cbn [fst] in X. destruct (Z.leb_spec (fst e) 0); [lia|]. apply IH. intros; apply SS; right; auto. }
      subst us. apply (loop_one r 500000); auto. change (inject_Z 500000) with 500000%Q. field. lra.
Qed.

(** The tempo map of a loaded file, and the tempo signatures read from it. *)
Lemma one_change : forall r us evs last p, 0 < r -> 0 < us -> tempo_events evs -> 0 <= last < MAX_TICK -> (forall e, In e evs -> snd e = us) -> at_tick evs 0 500000 = us ->
  pm_load r evs last = Ok p -> exists t q, fst (get_tempo_changes p) = Ok [(t, q)] /\ (t == 0)%Q /\ (q == 60000000 / inject_Z us)%Q.
Proof.
  intros r us evs last p R U TE L A E PL. destruct (load_one r us evs R U TE A E) as (c & LT & C).
  destruct (pm_load_ok r evs last R TE ltac:(lia) ltac:(lia)) as (p' & m & PL' & LT' & LI & PI & PR). assert (p' = p) by congruence. subst p'. assert (m = [(0, c)]) by congruence. subst m.
  assert (V : vmap [(0, c)]) by apply LI. pose proof (inject_pos' us U). pose proof (inject_pos' r R).
  assert (CP : (0 < c)%Q) by (rewrite C; apply Qlt_shift_div_l; lra).
  destruct (tempo_changes_ok [(0, c)] [(0, c)] p V) as (out & p2 & E3 & _ & _ & F2); auto; [|lia|].
  { intros x [<-|[]]. cbn. split; auto. unfold MAX_TICK. lia. }
  unfold get_tempo_changes. replace (M_Ticks.p_scales p) with [(0, c)] by (symmetry; apply PI). rewrite E3. cbn [fst]. inversion F2 as [|? [t q] ? ? [T1 T2] F3]; subst. inversion F3; subst. exists t, q. split; auto. cbn [fst snd] in *. split.
  - rewrite T1. unfold T. rewrite sum_to_0. reflexivity.
  - rewrite T2, C. field. split; lra.
Qed.
Lemma read_one : forall f so t q, read f = Ok so -> mf_tempos f = [(t, q)] -> (t == 0)%Q -> so_tempos so = [mkSig t 1 q].
Proof.
  intros f so t q RD E T0. destruct (read_sigs f so RD) as (_ & ST & _). rewrite ST, E. unfold sig_run, sig_default. cbn [fold_left fst snd]. unfold sig_add. cbn [rev app g_time g_seq snd].
  assert (near 0 t = true) as ->; [|reflexivity]. unfold near. apply Qltb_lt. destruct (Qabsb_spec (0 - t)) as [[? ->]|[? ->]]; lra.
Qed.

(** Choosing some of the notes of an instrument. *)
Lemma selects_nodup : forall A B (g : A -> B) (P : A -> Prop) l k, selects P l k -> NoDup (map g l) -> NoDup (map g k).
Proof.
  intros A B g P l k H. assert (I : forall l k, selects P l k -> forall x, In x k -> In x l) by (clear; intros l k H; induction H; intros y Y; auto; [destruct Y; [left|right]; auto|right; auto]).
  induction H as [|x l k P1 H IH|x l k P1 H IH]; intros N; auto; inversion N as [|? ? N1 N2]; subst; auto. cbn. constructor; auto.
  intros X. apply N1. apply in_map_iff in X as [y [E Y]]. rewrite <- E. apply in_map. eapply I; eauto.
Qed.
Lemma selects_in : forall A (P : A -> Prop) l k, selects P l k -> forall x, In x k -> In x l /\ P x.
Proof. intros A P l k H. induction H; intros y Y; [destruct Y| |]; [destruct Y as [<-|Y]; [split; [left|]; auto|]|]; destruct (IHselects y Y); split; auto; right; auto. Qed.

Section FILE.
Variables (keynum : string -> res Z) (dc r us : Z) (file : list ftrack) (so : M_Reader.song).
Hypothesis Hr : 0 < r.
Hypothesis Us : 0 < us.
Hypothesis MF : midi_file keynum file.
Hypothesis AM : at_most 128 file.
Hypothesis OT : one_tempo us file.
Hypothesis RD : read_file keynum dc r file = Ok so.

Let evs := match file with [] => [] | t0 :: _ => tempi_in (events_of (view as_meta t0)) end.
Lemma evs_one : (forall e, In e evs -> snd e = us) /\ at_tick evs 0 500000 = us.
Proof.
  destruct OT as [O1 O2]. unfold tempo_of in O2. unfold evs. destruct file as [|t0 rest] eqn:EF; [destruct MF as [N _]; congruence|]. split; auto.
  intros e X. unfold tempi_in in X. apply in_flat_map in X as [y [Y X]]. destruct y as [ty my]. cbn [snd] in X. destruct my as [v| | | |]; try (destruct X; fail). destruct X as [<-|[]]. cbn.
  rewrite <- absolute_events, abs_meta in Y. apply view_in in Y as [[tz mz] [Z1 Z2]]. cbn in Z2. injection Z2 as _ Z2. destruct mz as [m|m]; [|discriminate]. cbn in Z2. subst m.
  assert (Z3 : exists d0, In (d0, FMeta (MTempo v)) t0). { clear - Z1. revert Z1. generalize 0. induction t0 as [|[a b] l IH]; intros q K; cbn in K; [tauto|]. destruct K as [K|K]; [injection K as _ ->; exists a; left; auto|]. destruct (IH _ K) as [d0 D]. exists d0. right; auto. }
  destruct Z3 as [d0 Z3]. eapply O1; eauto.
Qed.
Lemma one_clock : forall k, 0 <= k -> (clock_of r file k == even_clock us r k)%Q.
Proof.
  intros k K. destruct evs_one as [A B]. unfold clock_of, even_clock, seconds. unfold evs in A, B. destruct file as [|t0 rest]; [destruct MF as [N _]; congruence|].
  rewrite <- (sum_const _ k K). apply sum_to_ext. intros j J. unfold tick_length. rewrite (at_tick_const _ us j); auto; [reflexivity|lia].
Qed.
(** The object was read from a file whose notes lie on the ticks. *)
Lemma file_grid : exists f s, S_Reader.file_ok f /\ read f = Ok so /\ mf_res f = r /\ so_tempos so = [s] /\ (g_time s == 0)%Q /\ (g_data s == 60000000 / inject_Z us)%Q /\
  forall i k, In i (mf_insts f) -> survivors [] (ri_notes i) k -> grid_notes us r k.
Proof.
  destruct (load_total keynum dc r file Hr MF) as (p & d & is & last & ev & LB & TE & PL & CK & TL & LS & F & TT & KO & TO & BN & EV). fold evs in EV. subst ev.
  set (s := load_file dc (map (view as_msg) file)) in *.
  assert (EX : exists evs, tempo_events evs /\ forall k, clock_of r file k = sum_to (tick_length r evs) k) by eauto.
  destruct evs_one as [A B]. destruct (one_change r us evs last p Hr Us TE LB A B PL) as (t & q & GT & T0 & Q0).
  assert (PR : p_res p = r). { destruct (pm_load_ok r evs last Hr TE ltac:(lia) ltac:(lia)) as (p0 & m0 & E0 & _ & _ & _ & R0). congruence. }
  set (sg := M_Song.mkSong p d is) in *. set (f := reader_file sg [(t, q)]).
  assert (SP : Forall2 (fun e i => S_Reader.inst_ok (reader_inst i) /\ ri_prog (reader_inst i) = fst (fst (fst e)) /\ ri_drum (reader_inst i) = (snd (fst (fst e)) =? dc) /\ Forall2 (rnote_at r file) (pi_notes (snd e)) (ri_notes (reader_inst i))) (l_insts s) is).
  { revert F. apply Forall2_imp. intros [k i] x K _ E. cbn [fst snd] in *. eapply to_seconds_spec; eauto. }
  assert (QP : (0 < q)%Q) by (rewrite Q0; pose proof (inject_pos' us Us); apply Qlt_shift_div_l; lra).
  assert (FI : S_Reader.file_ok f).
  { unfold S_Reader.file_ok, f, reader_file, sg. cbn. split; [lia|]. split; auto. split; [constructor; auto|]. split; auto. split.
    - apply Forall_forall. intros x X. apply in_map_iff in X as [i [<- X]]. destruct (F2_in_r _ _ _ _ _ _ SP X) as [e [_ [H _]]]. exact H.
    - rewrite map_length. rewrite <- (F2_len _ _ _ _ _ SP). rewrite <- (map_length fst). apply AM; [eapply keys_nodup|]. intros k K. eapply keys_parts; eauto. }
  exists f, (mkSig t 1 q). split; auto.
  assert (RE : read f = Ok so). { revert RD. unfold read_file. rewrite LS. cbn [bind sg_pm]. fold sg. change (sg_pm sg) with p. rewrite GT. auto. }
  split; auto. split; [unfold f, reader_file, sg; cbn; exact PR|]. split; [apply (read_one f); auto|]. cbn [g_time g_data]. split; auto. split; auto.
  intros i0 kk II SV. unfold f, reader_file, sg in II. cbn [mf_insts sg_insts] in II. apply in_map_iff in II as [x [<- X]]. destruct (F2_in_r _ _ _ _ _ _ SP X) as [[k i] [N (IO & XP & XD & XN)]]. cbn [fst snd] in *.
  destruct (key_part keynum dc file MF k i N) as (tk & n & NK & T & P & PM & SO & _).
  assert (NF : forall a, In a (pi_notes i) -> 0 < pn_vel a /\ 0 <= pn_start a <= pn_end a).
  { intros a I. apply (Permutation_in _ PM) in I. destruct (note_facts keynum file MF _ _ _ _ _ T I) as (_ & _ & _ & H1 & H2). auto. }
  assert (SE : StronglySorted (fun a b => (rn_end a <= rn_end b)%Q) (ri_notes (reader_inst x))).
  { eapply F2_sorted; [exact XN| |exact SO]. intros a a' b b' I I' (_ & _ & _ & R) (_ & _ & _ & R') H. rewrite R, R'. apply (clock_mono r file Hr EX). split; [|exact H]. pose proof (NF a I). lia. }
  pose proof (survivors_ascending _ [] kk ltac:(intros m0 x0 []) SE SV) as SL.
  destruct (selects_F2 _ _ (rnote_at r file) (lasting (clock_of r file)) S_Reader.audible _ _ XN) with (kb := kk) as [ka [K1 K2]]; auto.
  { intros a b I (_ & _ & R1 & R2). destruct (NF a I) as [_ H]. destruct (clock_mono r file Hr EX _ _ H) as [C1 C2]. rewrite audible_lasting by (rewrite ?R1, ?R2; lra). unfold lasting. rewrite R1, R2. reflexivity. }
  assert (IN : forall a, In a ka -> In a (pi_notes i) /\ lasting (clock_of r file) a) by (apply selects_in; auto).
  exists ka. split; [|split].
  - pose proof one_clock as OC. clear - K2 IN NF OC. revert IN. induction K2 as [|a b la lb (R1 & R2 & R3 & R4) K2 IH]; intros IN; constructor; [|apply IH; intros; apply IN; right; auto].
    destruct (NF a (proj1 (IN a (or_introl eq_refl)))) as [_ H]. unfold on_grid. rewrite R3, R4. rewrite !OC by lia. unfold equal_note. repeat (split; [first [assumption|congruence|reflexivity]|]). reflexivity.
  - split; [|split].
    + intros a I. destruct (IN a I) as [I1 L]. destruct (NF a I1) as [_ H]. destruct (Z.eq_dec (pn_start a) (pn_end a)) as [E|]; [|lia]. exfalso. unfold lasting in L. rewrite E in L.
      destruct (clock_mono r file Hr EX 0 (pn_end a)) as [C1 C2]; [lia|]. lra.
    + intros l1 a l2 b l3 E. eapply nodup_apart; [|exact E]. eapply selects_nodup; [exact K1|]. eapply Permutation_NoDup; [apply Permutation_map, Permutation_sym, PM|].
      apply of_inst_nodup. destruct MF as (_ & _ & _ & _ & _ & ND). apply ND. eapply nth_error_In; eauto.
    + intros a b I J L. destruct k as [[pr ch] tr]. cbn [fst snd] in *.
      assert (TK : nth_error (map (view as_msg) file) n = Some (view as_msg tk)) by (apply map_nth_error; auto).
      assert (ND : no_double (to_abs 0 (view as_msg tk))) by (rewrite played_abs; apply MF; eapply nth_error_In; eauto).
      assert (PP : forall d, In d (view as_msg tk) -> 0 <= fst d) by (apply (track_pos keynum file MF tk); eapply nth_error_In; eauto).
      destruct (C40_file dc (map (view as_msg) file) n (view as_msg tk) pr ch TK PP ND) as [CP _]. rewrite played_abs in CP. change (of_inst pr ch (track_notes (fun _ => 0) (played tk))) with (of_inst pr ch (denoted tk)) in CP.
      assert (NO : forall x, In x (pi_notes i) -> In x (notes_of s (pr, ch, Z.of_nat n))). { intros y Y. apply (Permutation_in _ PM) in Y. apply (Permutation_in _ (Permutation_sym CP)) in Y. exact Y. }
      destruct (C82_file dc (map (view as_msg) file) n (view as_msg tk) pr ch pr ch a b TK PP ND (NO a (proj1 (IN a I))) (NO b (proj1 (IN b J)))) as [_ C]. auto.
  - intros w W. destruct (NF w (proj1 (IN w W))). split; [auto|lia].
Qed.
End FILE.
