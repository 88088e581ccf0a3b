(** Properties C170-C172: converting multi-track objects back into MIDI pieces.
    [to_pretty_midi fuel srt so a b] is MidiReader.to_pretty_midi(so, from_start=a, to_end=b);
    [convert_raw so b] the object it has built when it comes to from_start and to_end;
    [to_instruments so b] the instruments of that object (C86, C87). *)
From Coq Require Import Lqa Lia Sorted Permutation.
From Verif Require Import PyBase L_Base M_Beats M_Adjust S_Adjust L_Adjust2 M_SortedDict M_Note L_Note M_Events M_Seq S_Seq L_Seq M_Seqs M_Ticks S_Ticks L_Ticks M_Load M_Write M_Meta M_Song M_Reader S_Reader L_Reader L_Reader2 L_Reader3 M_Pipe M_Tempi S_Tempi L_Tempi L_Tempi2 M_Convert S_Convert L_Convert L_Convert2 L_Convert3 L_Convert4 L_Meta P_Tempi.
Open Scope Z_scope.

Lemma tempos_sliced : forall (l : list (sig Q)) t, ~ (t == 0)%Q -> selects (fun s => (g_time s <= t)%Q) l (slice_tempo l (Some t)).
Proof.
  intros l t N. unfold slice_tempo. induction l as [|s l IH]; cbn [filter]; [constructor|]. destruct (Qeq_bool t 0) eqn:Q0; [apply Qeq_bool_iff in Q0; lra|]. cbn [negb andb] in *.
  destruct (Qltb t (g_time s)) eqn:L; cbn [negb]; [apply Qltb_lt in L; constructor 3; auto; lra|apply Qltb_ge in L; constructor; auto].
Qed.
Lemma first_in : forall l, l <> [] -> exists s, In s l /\ first_qpm l = g_data s.
Proof.
  intros [|z l] H; [congruence|]. unfold first_qpm. destruct (find _ (z :: l)) as [s|] eqn:F; [apply find_some in F as [F _]; eauto|]. exists z. split; [left|]; auto.
Qed.
(** C170: every tempo is written after the ones before it, but on the tick it would have if only the
    tempo written just before it had been in force since time 0; tempos after the last note are left out. *)
Theorem C170_tempo_ticks : forall so b sg, 0 < m_res (so_ms so) -> so_tempos so <> [] -> (forall s, In s (so_tempos so) -> (0 < g_data s)%Q) ->
  convert_raw so (Some b) = Ok sg -> exists t q0 s0 l tl, last_end so t /\ q0 = first_qpm (so_tempos so) /\ (s0 == 60 / (q0 * inject_Z (m_res (so_ms so))))%Q /\
  (~ (t == 0)%Q -> selects (fun s => (g_time s <= t)%Q) (so_tempos so) l) /\
  M_Ticks.p_scales (sg_pm sg) = (0, s0) :: tl /\ Forall2 (fun x e => placed (m_res (so_ms so)) (fst x) (snd x) e) (combine (q0 :: map g_data l) l) tl.
Proof.
  intros so b sg R NE POS H. destruct (raw_parts so (Some b) sg H) as (t & p0 & w & T & P0 & _ & _ & _ & P1 & _).
  destruct (first_in _ NE) as [s [S1 S2]]. replace (m_res (so_ms so) =? 0) with false in P0 by (symmetry; apply Z.eqb_neq; lia).
  unfold pm_new in P0. assert (Q0 : (0 < first_qpm (so_tempos so))%Q) by (rewrite S2; auto). destruct (scale_bpm_ok _ _ Q0 R) as [s0 [E0 [V0 _]]]. rewrite E0 in P0. cbn [bind] in P0. apply Ok_inj in P0. subst p0.
  destruct (put_tempi_ok (m_res (so_ms so)) (slice_tempo (so_tempos so) (Some t)) [(0, s0)] [] 0 (first_qpm (so_tempos so)) R Q0) with (s0 := s0) as [tl [E F]]; auto.
  { intros x X. apply POS. apply filter_In in X. apply X. }
  rewrite E in P1. apply Ok_inj in P1. exists t, (first_qpm (so_tempos so)), s0, (slice_tempo (so_tempos so) (Some t)), tl.
  split; [eapply truncate_last; eauto|]. split; auto. split; auto. split; [apply tempos_sliced|]. rewrite <- P1. split; [reflexivity|exact F].
Qed.
Print Assumptions C170_tempo_ticks.
(** C170: so the second change of tempo lands r * t1 * (q1 - q0) / 60 ticks away from its place. *)
Theorem C170_drift : forall so b sg q0 t1 q1 t2 q2 a0 a1 a2, 0 < m_res (so_ms so) -> so_tempos so = [mkSig 0 a0 q0; mkSig t1 a1 q1; mkSig t2 a2 q2] ->
  (0 < q0)%Q -> (0 < q1)%Q -> (0 < q2)%Q -> (0 < t1)%Q -> (t1 < t2)%Q -> (exists n, note_of so n /\ (t2 <= n_end n)%Q) -> convert_raw so (Some b) = Ok sg ->
  exists e0 e0' e1 k s, M_Ticks.p_scales (sg_pm sg) = [e0; e0'; e1; (k, s)] /\
  let r := inject_Z (m_res (so_ms so)) in let right := (r * (t1 * q0 + (t2 - t1) * q1) / 60)%Q in
  (Qabsb (inject_Z k - (right + r * t1 * (q1 - q0) / 60)) <= 1 # 2)%Q.
Proof.
  intros so b sg q0 t1 q1 t2 q2 a0 a1 a2 R E P0 P1 P2 T1 T2 (n & N1 & N2) H.
  destruct (C170_tempo_ticks so b sg R) as (t & q & s0 & l & tl & LE & Q & _ & SL & SC & F); auto.
  { rewrite E. discriminate. } { intros s. rewrite E. intros [<-|[<-|[<-|[]]]]; auto. }
  assert (T3 : (t2 <= t)%Q) by (destruct LE as [LE _]; specialize (LE n N1); lra). rewrite E in SL, Q. cbn in Q. subst q.
  assert (L : l = [mkSig 0 a0 q0; mkSig t1 a1 q1; mkSig t2 a2 q2]).
  { specialize (SL ltac:(lra)). inversion SL as [|x ? k K1 K2|x ? k K1 K2]; subst; [|exfalso; apply K1; cbn; lra]. f_equal.
    inversion K2 as [|x ? k2 K3 K4|x ? k2 K3 K4]; subst; [|exfalso; apply K3; cbn; lra]. f_equal.
    inversion K4 as [|x ? k3 K5 K6|x ? k3 K5 K6]; subst; [|exfalso; apply K5; cbn; lra]. f_equal. inversion K6. reflexivity. }
  subst l. cbn [map combine g_data] in F. inversion F as [|? e0 ? tl1 _ F1]; subst. inversion F1 as [|? e1 ? tl2 _ F2]; subst. inversion F2 as [|? [k s] ? tl3 F3 F4]; subst. inversion F4; subst.
  exists (0, s0), e0, e1, k, s. split; auto. cbv zeta. destruct F3 as (_ & _ & F3). cbn [fst snd g_time] in F3. destruct (F3 ltac:(lra)) as [_ X].
  rewrite (Qabsb_comp _ (inject_Z k - t2 * (q1 * inject_Z (m_res (so_ms so)) / 60))); [exact X|]. field.
Qed.
Print Assumptions C170_drift.

(** C171: a piece is only delivered if some note starts between 50 ms and 2 s after another one with
    none in between; without, an exception is raised (a log message asks for the tempo). *)
Theorem C171_rhythm : forall fuel srt so a b sg, argsorts srt -> to_pretty_midi fuel srt so a b = Ok (Some sg) ->
  has_rhythm (flat_map si_notes (sg_insts sg)).
Proof.
  intros fuel srt so a [b|] sg A H.
  - destruct (stages fuel srt so a b sg A H) as (raw & sg1 & _ & _ & _ & R & _). exact R.
  - unfold to_pretty_midi in H. destruct (convert_raw so None) as [raw|e] eqn:E; cbn [bind] in H; [|discriminate]. exfalso.
    destruct (raw_parts so None raw E) as (t & p0 & l & _ & _ & _ & _ & _ & _ & T & _). destruct (to_instruments_none so) as [N _]. apply (N l T).
Qed.
Print Assumptions C171_rhythm.

(** C172: from_start and to_end do not cut anything: the time from 0 to the end E of the piece is
    stretched linearly onto the time from from_start to to_end (E, if that is earlier), and every note
    that has a length is kept. *)
Theorem C172_linear : forall fuel srt so a b sg l, argsorts srt -> to_pretty_midi fuel srt so a (Some b) = Ok (Some sg) -> to_instruments so (Some b) = Ok l ->
  (forall i n, In i l -> In n (ri_notes i) -> (0 <= rn_start n)%Q) -> (exists i n, In i l /\ In n (ri_notes i) /\ (0 < rn_end n)%Q) ->
  exists e lo hi, (forall i n, In i l -> In n (ri_notes i) -> (rn_end n <= e)%Q) /\ (0 <= lo)%Q /\ (lo < hi)%Q /\ (hi <= e)%Q /\
  (lo == Qmaxb 0 (match a with Some v => v | None => 0%Q end))%Q /\ (hi == Qminb b e)%Q /\
  Forall2 (fun i o => si_prog o = ri_prog i /\ si_drum o = ri_drum i /\
    carried (fun n => rn_start n < rn_end n)%Q (fun n n' => sn_vel n' = rn_vel n /\ sn_pitch n' = rn_pitch n /\
        (sn_start n' == lo + (hi - lo) / e * rn_start n)%Q /\ (sn_end n' == lo + (hi - lo) / e * rn_end n)%Q) (ri_notes i) (si_notes o) /\
    exists f, (forall t, (0 <= t)%Q -> (t <= e)%Q -> (f t == lo + (hi - lo) / e * t)%Q) /\
      retimed fst (fun b t => (t, snd b)) f lo hi (map (fun b => (snd b, fst b)) (ri_bends i)) (si_bends o) /\
      retimed (fun c => fst (fst c)) (fun c t => (t, snd (fst c), snd c)) f lo hi (map (fun c => (snd c, fst (fst c), snd (fst c))) (ri_ccs i)) (si_ccs o))
    l (sg_insts sg).
Proof.
  intros fuel srt so a b sg l A H TI POS (i0 & n0 & I0 & N0 & E0). destruct (stages fuel srt so a b sg A H) as (raw & sg1 & RW & FT & _ & _ & IS & _).
  destruct (raw_parts so (Some b) raw RW) as (t & p0 & l' & _ & _ & _ & _ & _ & _ & TI' & RI). assert (l' = l) by congruence. subst l'.
  destruct (fit_line fuel raw a b sg1 FT) as (tempi & p1 & _ & K).
  { exists (inst_of i0), (mkSN (rn_vel n0) (rn_pitch n0) (rn_start n0) (rn_end n0)). rewrite RI. split; [apply in_map; auto|]. split; auto. cbn. apply in_map_iff. eauto. }
  cbv zeta in K. set (e := piece_end tempi (tsigs (sg_meta raw)) (other_times raw)) in *. destruct K as (E & lo & hi & L0 & L1 & L2 & L3 & L4 & L5).
  assert (EN : forall i n, In i l -> In n (ri_notes i) -> (rn_end n <= e)%Q).
  { intros i n I N. apply (end_note tempi raw (inst_of i) (mkSN (rn_vel n) (rn_pitch n) (rn_start n) (rn_end n))); [rewrite RI; apply in_map; auto|]. cbn. apply in_map_iff. eauto. }
  exists e, lo, hi. split; auto. split; auto. split; auto. split; auto. split; auto. split; auto. rewrite IS, L5, RI, map_map. clear TI TI' RI IS L5 I0.
  induction l as [|i l IH]; cbn [map]; constructor; [|apply IH; [intros; eapply POS; eauto; right; auto|intros; eapply EN; eauto; right; auto]].
  split; [reflexivity|]. split; [reflexivity|]. split.
  - pose proof (notes_line e lo hi (inst_of i) E L0 L1) as NL. assert (X : forall n, In n (si_notes (inst_of i)) -> (0 <= sn_start n /\ sn_end n <= e)%Q).
    { intros n N. cbn in N. apply in_map_iff in N as [m [<- M]]. cbn. split; [apply (POS i)|apply (EN i)]; auto; left; auto. }
    specialize (NL X). cbn [inst_of si_notes] in NL. apply carried_unmap in NL. exact NL.
  - destruct (refit_events e lo hi (inst_of i) E L1) as [f [F1 [F2 F3]]]. exists f. split; auto.
Qed.
Print Assumptions C172_linear.
Lemma survivors_sub : forall seen l k, survivors seen l k -> forall n, In n k -> In n l /\ audible n.
Proof. intros seen l k H. induction H; intros x X; [destruct X| |]; [destruct X as [<-|X]; [split; [left|]; auto|]|]; destruct (IHsurvivors x X); split; auto; right; auto. Qed.
Lemma carried_all : forall A B (P : A -> Prop) (R : A -> B -> Prop) l l', (forall a, In a l -> P a) -> carried P R l l' -> Forall2 R l l'.
Proof. intros A B P R l l' H C. induction C; [constructor| |exfalso; apply H0, H; left; auto]. constructor; auto. apply IHC. intros x X. apply H. right; auto. Qed.
Lemma Forall2_trans_rel : forall A B C (R1 : A -> B -> Prop) (R2 : B -> C -> Prop) (R : A -> C -> Prop) l m n, (forall a b c, In b m -> R1 a b -> R2 b c -> R a c) -> Forall2 R1 l m -> Forall2 R2 m n -> Forall2 R l n.
Proof.
  intros A B C R1 R2 R l m n HH F. revert n HH. induction F as [|a b l m F0 F IHF]; intros n H G; inversion G; subst; constructor; [eapply H; eauto; left; auto|]. apply IHF; auto. intros; eapply H; eauto; right; auto.
Qed.
(** C172: for an object read from a file: besides an empty instrument there is one per instrument of the file
    with its drum flag and program 0; its notes are those that survived reading (C42), stretched; no pitch
    bends or control changes; E is the end of the last audible note, if no tempo changes after time 0. *)
Theorem C172_file : forall fuel srt f so a b sg, argsorts srt -> S_Reader.file_ok f -> read f = Ok so -> has_audible f -> to_pretty_midi fuel srt so a (Some b) = Ok (Some sg) ->
  exists e lo hi i0 outs, (so_total so <= e)%Q /\ file_end f (so_total so) /\ ((forall s, In s (so_tempos so) -> (g_time s <= 0)%Q) -> (e == so_total so)%Q) /\
  (0 <= lo)%Q /\ (lo < hi)%Q /\ (lo == Qmaxb 0 (match a with Some v => v | None => 0%Q end))%Q /\ (hi == Qminb b e)%Q /\
  sg_insts sg = i0 :: outs /\ si_notes i0 = [] /\
  Forall2 (fun i o => si_prog o = 0 /\ si_drum o = ri_drum i /\ si_bends o = [] /\ si_ccs o = [] /\ exists k, survivors [] (ri_notes i) k /\
    Forall2 (fun n n' => sn_vel n' = rn_vel n /\ sn_pitch n' = rn_pitch n /\
      (sn_start n' == lo + (hi - lo) / e * rn_start n)%Q /\ (sn_end n' == lo + (hi - lo) / e * rn_end n)%Q) k (si_notes o)) (mf_insts f) outs.
Proof.
  intros fuel srt f so a b sg A FO RD AU H. destruct (back_spec f so b FO RD AU) as [l [TI BK]]. destruct (read_spec f FO) as [so' [E' [FE _]]]. assert (so' = so) by congruence. subst so'.
  destruct (stages fuel srt so a b sg A H) as (raw & sg1 & RW & FT & _ & _ & IS & _).
  destruct (raw_parts so (Some b) raw RW) as (t & p0 & l' & TT & PN & MT & MK & ML & PT & TI' & RI). assert (l' = mkRI 0 false "" [] [] [] :: l) by congruence. subst l'.
  pose proof (file_end_pos f _ FO FE AU) as TP.
  assert (NT : forall i, In i (mf_insts f) -> forall n, In n (ri_notes i) -> note_ok n).
  { intros i I n N. destruct FO as (_ & _ & _ & _ & FO & _). rewrite Forall_forall in FO. destruct (FO i I) as (_ & FN & _). rewrite Forall_forall in FN. auto. }
  (* the last note survives *)
  assert (LAST : exists o n, In o l /\ In n (ri_notes o) /\ (rn_end n == so_total so)%Q).
  { destruct FE as [FE1 [[_ X]|[n [[i [I1 [I2 I3]]] EN]]]]; [exfalso; destruct AU as (i & n & A1 & A2 & A3); apply (X n); eauto|].
    destruct (F2_in_l _ _ _ _ _ _ BK I1) as [o [O (_ & _ & SV & _)]]. exists o, n. split; auto. split; auto.
    apply (survivors_last (ri_notes i) [] (ri_notes o)); auto; [apply Forall_forall; intros; eapply NT; eauto|]. intros m M MA. cbn in M. assert (rn_end m <= so_total so)%Q by (apply FE1; eauto). lra. }
  assert (OK : forall o n, In o l -> In n (ri_notes o) -> (0 <= rn_start n)%Q /\ (rn_start n < rn_end n)%Q /\ (rn_end n <= so_total so)%Q).
  { intros o n O N. destruct (F2_in_r _ _ _ _ _ _ BK O) as [i [I (_ & _ & SV & _)]]. destruct (survivors_sub _ _ _ SV n N) as [N1 N2]. destruct (NT i I n N1) as (_ & _ & S1 & S2). split; auto. split; [apply audible_lt; auto; eapply NT; eauto|].
    destruct FE as [FE1 _]. apply FE1. eauto. }
  destruct (fit_line fuel raw a b sg1 FT) as (tempi & p1 & TC & K).
  { destruct LAST as (o & n & O & N & E). exists (inst_of o), (mkSN (rn_vel n) (rn_pitch n) (rn_start n) (rn_end n)). rewrite RI. split; [apply in_map; right; auto|]. split; [cbn; apply in_map_iff; eauto|]. cbn. lra. }
  cbv zeta in K. set (e := piece_end tempi (tsigs (sg_meta raw)) (other_times raw)) in *. destruct K as (E & lo & hi & L0 & L1 & L2 & L3 & L4 & L5).
  assert (EN : forall i n, In i l -> In n (ri_notes i) -> (rn_end n <= e)%Q).
  { intros i n I N. apply (end_note tempi raw (inst_of i) (mkSN (rn_vel n) (rn_pitch n) (rn_start n) (rn_end n))); [rewrite RI; apply in_map; right; auto|]. cbn. apply in_map_iff. eauto. }
  rewrite RI in L5. cbn [map] in L5.
  exists e, lo, hi, (refit [(0, lo); (e, hi)]%Q (inst_of (mkRI 0 false "" [] [] []))), (map (refit [(0, lo); (e, hi)]%Q) (map inst_of l)).
  assert (TE : (so_total so <= e)%Q) by (destruct LAST as (o & n & O & N & EQ); rewrite <- EQ; apply (EN o); auto).
  split; auto. split; auto. split.
  { intro ZT. assert (Z1 : p_times (sg_pm raw) = [0%Q] /\ (forall x, In x (M_Ticks.p_scales (sg_pm raw)) -> fst x = 0)).
    { unfold pm_new in PN. destruct (scale_of_bpm _ _) as [s0|x] in PN; cbn [bind] in PN; [|discriminate]. apply Ok_inj in PN. subst p0. refine (put_tempi_zero _ _ _ _ _ _ PT); [|reflexivity|].
      - intros s S. apply ZT. apply filter_In in S. apply S.
      - cbn. intros x [<-|[]]. reflexivity. }
    destruct Z1 as [Z1 Z2]. pose proof (changes_zero _ _ _ _ Z1 Z2 TC) as Z3.
    assert (T0 : (t <= so_total so)%Q).
    { destruct (truncate_last so b t TT) as [_ [n [(q & Q1 & Q2) ET]]]. rewrite <- ET.
      assert (X : In (n_end n) (flat_map (fun o => map rn_end (ri_notes o)) l)); [|apply in_flat_map in X as [o [O X]]; apply in_map_iff in X as [m [<- M]]; apply (OK o m O M)].
      unfold to_instruments in TI. rewrite TT in TI. cbn [bind] in TI. destruct (conv_insts (so_ms so) (sd_keys (m_tracks (so_ms so))) t) as [w|x] eqn:CI; cbn [bind] in TI; [|discriminate]. assert (w = l) by congruence. subst w.
      destruct (read_spec f FO) as [so' [E2 [_ TR]]]. assert (so' = so) by congruence. subst so'. unfold ms_values in Q1. apply in_flat_map in Q1 as [k [K1 K2]].
      rewrite (keys_enum _ _ _ TR) in CI, K1. destruct (conv_insts_ok (map Z.of_nat (List.seq 0 (List.length (mf_insts f)))) (so_ms so) _ _ t TR) as [w [C1 C2]].
      { destruct FO as (_ & _ & _ & _ & _ & FO). lia. } { intros j J. apply in_map_iff in J as [y [<- Y]]. apply in_seq in Y. lia. }
      assert (w = l) by congruence. subst w. destruct (F2_in_l _ _ _ _ _ _ C2 K1) as [o [O (q' & T1 & _ & ->)]]. destruct (trk (so_ms so) k) as [q2|] eqn:TK; [|destruct K2]. destruct K2 as [<-|[]]. assert (q' = q2) by congruence. subst q'.
      apply in_flat_map. exists (seq_to_inst q2 t). split; auto. cbn [seq_to_inst ri_notes]. rewrite map_map. apply in_map_iff. exists n. split; auto. }
    assert (X : (e <= so_total so)%Q); [|lra]. unfold e. apply end_le; [lra|]. intros x X. apply in_app_iff in X as [X|X]; [|apply in_app_iff in X as [X|X]].
    - unfold other_times in X. apply in_app_iff in X as [X|X].
      + apply in_map_iff in X as [i [<- I]]. rewrite RI in I. apply in_map_iff in I as [o [<- O]]. unfold inst_end. apply end_le; [lra|]. intros x X. destruct O as [<-|O]; [destruct X|].
        destruct (F2_in_r _ _ _ _ _ _ BK O) as [i [I (_ & _ & _ & B1 & B2)]]. cbn [inst_of si_notes si_bends si_ccs] in X. rewrite B1, B2 in X. cbn [map app] in X. rewrite app_nil_r in X.
        rewrite map_map in X. apply in_map_iff in X as [n [<- N]]. cbn. apply (OK o n O N).
      + rewrite ML in X. cbn [map] in X. rewrite app_nil_r in X. apply in_map_iff in X as [k [<- KK]]. pose proof (keys_sliced _ _ _ MK k KK). lra.
    - unfold tsigs in X. rewrite map_map in X. apply in_map_iff in X as [k [<- KK]]. cbn. pose proof (times_sliced _ _ _ MT k KK). lra.
    - apply in_map_iff in X as [k [<- KK]]. rewrite (Z3 k KK). lra. }
  split; auto. split; auto. split; auto. split; auto. split; [congruence|]. split; [reflexivity|].
  rewrite map_map. eapply (Forall2_trans_rel _ _ _ _ (fun o o' => o' = refit [(0, lo); (e, hi)]%Q (inst_of o)) _ _ l); [|exact BK|clear; induction l; cbn; constructor; auto].
  intros i o o' O (B1 & B2 & B3 & B4 & B5) ->. split; [exact B1|]. split; [exact B2|]. split; [cbn; rewrite B4; reflexivity|]. split; [cbn; rewrite B5; reflexivity|]. exists (ri_notes o). split; auto.
  eapply carried_all; [intros n N; exact (proj1 (proj2 (OK o n O N)))|].
  pose proof (notes_line e lo hi (inst_of o) E L0 L1) as NL. assert (X : forall n, In n (si_notes (inst_of o)) -> (0 <= sn_start n /\ sn_end n <= e)%Q).
  { intros n N. cbn in N. apply in_map_iff in N as [m [<- M]]. cbn. split; [apply (OK o m O M)|apply (EN o)]; auto. }
  specialize (NL X). cbn [inst_of si_notes] in NL. apply carried_unmap in NL. exact NL.
Qed.
Print Assumptions C172_file.

(** 120, 60 from second 1, 90 from second 3. *)
Definition f170 : mfile := mkMF 4 [(2, 0%Q)] [(0, 120); (1, 60); (3, 90)]%Q [(3, 4, 0%Q)]
  [mkRI 5 false "a" [mkRN 90 60 0 1; mkRN 80 62 1 2; mkRN 70 64 2 5] [] []; mkRI 0 true "b" [mkRN 100 36 0 (1 # 2)] [] []].
(** The same at one tempo. *)
Definition g170 : mfile := mkMF 4 [(2, 0%Q)] [(0, 120)]%Q [(3, 4, 0%Q)] (mf_insts f170).
Definition show (sg : M_Song.song) : list (list (Z * Q * Q)) := map (fun i => map (fun n => (sn_pitch n, Qred (sn_start n), Qred (sn_end n))) (si_notes i)) (sg_insts sg).
Ltac file_ok_tac := unfold S_Reader.file_ok, inst_ok, note_ok; cbn [f170 g170 mf_res mf_keys mf_tempos mf_times mf_insts];
  repeat match goal with
  | |- _ /\ _ => split
  | |- Forall _ [] => constructor
  | |- Forall _ (_ :: _) => constructor
  | |- Forall _ _ => progress cbn [ri_notes ri_bends ri_ccs]
  end; cbn; try lia; try lra; try (unfold Qlt, Qle; cbn; lia).
Example f170_ok : S_Reader.file_ok f170 /\ has_audible f170 /\ S_Reader.file_ok g170 /\ has_audible g170.
Proof.
  assert (P : exists k, 0 <= k <= 7 /\ 4 = 2 ^ k) by (exists 2; split; [lia|reflexivity]).
  assert (A : audible (mkRN 90 60 0 1)) by (intro H; vm_compute in H; apply H; reflexivity).
  split; [file_ok_tac; exact P|]. split; [do 2 eexists; split; [left; reflexivity|split; [left; reflexivity|exact A]]|].
  split; [file_ok_tac; exact P|]. do 2 eexists; split; [left; reflexivity|split; [left; reflexivity|exact A]].
Qed.
(** Entries at ticks 8 and 12 instead of 8 and 16: read back, the third tempo starts at second 2. *)
Example C170_case : exists so raw sg tempi p, read f170 = Ok so /\ convert_raw so (Some 5%Q) = Ok raw /\
  map fst (M_Ticks.p_scales (sg_pm raw)) = [0; 0; 8; 12] /\
  to_pretty_midi 100 stable_argsort so None (Some 9%Q) = Ok (Some sg) /\ get_tempo_changes (sg_pm sg) = (Ok tempi, p) /\
  map (fun c => (Qred (fst c), Qred (snd c))) tempi = [(0, 120); (1, 60); (2, 90)]%Q /\
  0 < m_res (so_ms so) /\ map (fun s => (g_time s, g_data s)) (so_tempos so) = [(0, 120); (1, 60); (3, 90)]%Q.
Proof.
  do 5 eexists. split; [vm_compute; reflexivity|]. split; [vm_compute; reflexivity|]. split; [vm_compute; reflexivity|]. split; [vm_compute; reflexivity|].
  split; [vm_compute; reflexivity|]. split; [vm_compute; reflexivity|]. split; vm_compute; reflexivity.
Qed.
Example C171_case : argsorts stable_argsort /\ exists so, read (mkMF 4 [] [] [] [mkRI 0 false "" [mkRN 90 60 0 1; mkRN 80 64 0 1; mkRN 80 67 0 1] [] []]) = Ok so /\
  to_pretty_midi 100 stable_argsort so None (Some 1%Q) = Err ValueError.
Proof. split; [exact argsorts_case|]. eexists. split; [vm_compute; reflexivity|]. vm_compute. reflexivity. Qed.
(** Asked for the piece from second 1 to second 2, all of it is squeezed between them. *)
Example C172_case : exists so sg, read g170 = Ok so /\ to_pretty_midi 100 stable_argsort so (Some 1%Q) (Some 2%Q) = Ok (Some sg) /\
  show sg = [[]; [(60, 1%Q, 6 # 5); (62, 6 # 5, 7 # 5); (64, 7 # 5, 2%Q)]; [(36, 1%Q, 11 # 10)]] /\ (so_total so == 5)%Q /\ forallb (fun s => Qle_bool (g_time s) 0) (so_tempos so) = true.
Proof. do 2 eexists. split; [vm_compute; reflexivity|]. split; [vm_compute; reflexivity|]. split; [vm_compute; reflexivity|]. split; vm_compute; reflexivity. Qed.
