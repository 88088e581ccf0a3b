(** to_pretty_midi of an object that was read from a file with one tempo. *)
From Coq Require Import Lqa Lia Sorted Permutation Qabs.
From Verif Require Import PyBase L_Base M_Beats L_Beats5 M_Adjust S_Adjust L_Adjust L_Adjust2 L_Adjust3 L_Adjust4 M_SortedDict M_Note L_Note M_Events M_Seq S_Seq L_Seq M_Seqs M_Ticks S_Ticks L_Ticks M_Load M_Write M_Meta L_Meta M_Song S_Song M_Reader S_Reader L_Reader L_Reader2 L_Reader3 L_Reader6 M_Pipe M_Tempi S_Tempi L_Tempi L_Tempi2 M_Convert S_Convert L_Convert L_Convert2 L_Convert3 L_Convert4 L_Convert5 P_Convert.
Open Scope Z_scope.

Section FILE.
Variables (f : mfile) (so : M_Reader.song) (b : Q) (raw : M_Song.song).
Hypothesis FO : S_Reader.file_ok f.
Hypothesis RD : read f = Ok so.
Hypothesis AU : has_audible f.
Hypothesis RW : convert_raw so (Some b) = Ok raw.

Lemma total_pos : (0 < so_total so)%Q.
Proof. destruct (read_spec f FO) as [so' [E' [FE _]]]. assert (so' = so) by congruence. subst so'. eapply file_end_pos; eauto. Qed.
Lemma raw_insts : exists l, sg_insts raw = inst_of (mkRI 0 false "" [] [] []) :: map inst_of l /\
  Forall2 (fun i o => ri_prog o = 0 /\ ri_drum o = ri_drum i /\ survivors [] (ri_notes i) (ri_notes o) /\ ri_bends o = [] /\ ri_ccs o = []) (mf_insts f) l /\
  (forall o n, In o l -> In n (ri_notes o) -> note_ok n /\ (rn_start n < rn_end n)%Q /\ (rn_end n <= so_total so)%Q) /\
  (exists o n, In o l /\ In n (ri_notes o) /\ (rn_end n == so_total so)%Q).
Proof.
  destruct (back_spec f so b FO RD AU) as [l [TI BK]]. destruct (read_spec f FO) as [so' [E' [FE _]]]. assert (so' = so) by congruence. subst so'.
  destruct (raw_parts so (Some b) raw RW) as (t & p0 & l' & TT & PN & MT & MK & ML & PT & TI' & RI). assert (l' = mkRI 0 false "" [] [] [] :: l) by congruence. subst l'.
  assert (NT : forall i, In i (mf_insts f) -> forall n, In n (ri_notes i) -> note_ok n).
  { intros i I n N. destruct FO as (_ & _ & _ & _ & FF & _). rewrite Forall_forall in FF. destruct (FF i I) as (_ & FN & _). rewrite Forall_forall in FN. auto. }
  exists l. split; [rewrite RI; reflexivity|]. split; auto. split.
  - intros o n O N. destruct (F2_in_r _ _ _ _ _ _ BK O) as [i [I (_ & _ & SV & _)]]. destruct (survivors_sub _ _ _ SV n N) as [N1 N2]. split; [eauto|]. split; [apply audible_lt; auto; eapply NT; eauto|].
    destruct FE as [FE1 _]. apply FE1. eauto.
  - destruct FE as [FE1 [[_ X]|[n [[i [I1 [I2 I3]]] EN]]]]; [exfalso; destruct AU as (i & n & A1 & A2 & A3); apply (X n); eauto|].
    destruct (F2_in_l _ _ _ _ _ _ BK I1) as [o [O (_ & _ & SV & _)]]. exists o, n. split; auto. split; auto.
    apply (survivors_last (ri_notes i) [] (ri_notes o)); auto; [apply Forall_forall; intros; eapply NT; eauto|]. intros m M MA. cbn in M. assert (rn_end m <= so_total so)%Q by (apply FE1; eauto). lra.
Qed.
Lemma raw_pos : exists i n, In i (sg_insts raw) /\ In n (si_notes i) /\ (0 < sn_end n)%Q.
Proof.
  pose proof total_pos as TP. destruct raw_insts as (l & RI & _ & _ & o & n & O & N & E). exists (inst_of o), (mkSN (rn_vel n) (rn_pitch n) (rn_start n) (rn_end n)). rewrite RI. split; [right; apply in_map; auto|]. split; [cbn; apply in_map_iff; eauto|]. cbn. lra.
Qed.
Lemma truncate_total : forall t, truncate_to (so_ms so) (Some b) = Ok t -> (0 < t)%Q /\ (t <= so_total so)%Q.
Proof.
  intros t TT. destruct (raw_parts so (Some b) raw RW) as (t' & p0 & l' & TT' & _ & _ & _ & _ & _ & TI & RI). assert (t' = t) by congruence. subst t'.
  destruct raw_insts as (l & RI2 & BK & OK & _).
  destruct (truncate_last so b t TT) as [_ [n [(q & Q1 & Q2) ET]]]. rewrite <- ET.
  unfold to_instruments in TI. rewrite TT in TI. cbn [bind] in TI. destruct (conv_insts (so_ms so) (sd_keys (m_tracks (so_ms so))) t) as [w|x] eqn:CI; cbn [bind] in TI; [|discriminate]. apply Ok_inj in TI. subst l'.
  destruct (read_spec f FO) as [so' [E2 [_ TR]]]. assert (so' = so) by congruence. subst so'. unfold ms_values in Q1. apply in_flat_map in Q1 as [k [K1 K2]].
  rewrite (keys_enum _ _ _ TR) in CI, K1. destruct (conv_insts_ok (map Z.of_nat (List.seq 0 (List.length (mf_insts f)))) (so_ms so) _ _ t TR) as [w' [C1 C2]].
  { destruct FO as (_ & _ & _ & _ & _ & FF). lia. } { intros j J. apply in_map_iff in J as [y [<- Y]]. apply in_seq in Y. lia. }
  assert (w' = w) by congruence. subst w'. destruct (F2_in_l _ _ _ _ _ _ C2 K1) as [o [O (q' & T1 & _ & EO)]]. destruct (trk (so_ms so) k) as [q2|] eqn:TK; [|destruct K2]. destruct K2 as [<-|[]]. assert (q' = q2) by congruence. subst q'.
  assert (IO : In (inst_of o) (sg_insts raw)) by (rewrite RI; apply in_map; right; auto). rewrite RI2 in IO.
  assert (IN : In (mkSN (n_velocity n) (n_pitch n) (n_start n) (n_end n)) (si_notes (inst_of o))) by (rewrite EO; cbn; rewrite map_map; apply in_map_iff; exists n; auto).
  destruct IO as [IO|IO]; [rewrite <- IO in IN; destruct IN|]. apply in_map_iff in IO as [o' [IO O']]. rewrite <- IO in IN. cbn in IN. apply in_map_iff in IN as [m [EM M]]. destruct (OK o' m O' M) as ((_ & _ & H0 & _) & H1 & H). injection EM as _ _ _ <-. split; [lra|exact H].
Qed.
Lemma piece_total : forall tempi, (forall o, In o tempi -> (fst o == 0)%Q) -> (piece_end tempi (tsigs (sg_meta raw)) (other_times raw) == so_total so)%Q.
Proof.
  intros tempi Z3. pose proof total_pos as TP. destruct raw_insts as (l & RI & BK & OK & LAST).
  destruct (raw_parts so (Some b) raw RW) as (t & p0 & l' & TT & PN & MT & MK & ML & PT & TI' & _). pose proof (proj2 (truncate_total t TT)) as T0.
  apply Qle_antisym.
  - apply end_le; [lra|]. intros x X. apply in_app_iff in X as [X|X]; [|apply in_app_iff in X as [X|X]].
    + unfold other_times in X. apply in_app_iff in X as [X|X].
      * apply in_map_iff in X as [i [<- I]]. rewrite RI in I. unfold inst_end. apply end_le; [lra|]. intros x X. destruct I as [<-|I]; [destruct X|]. apply in_map_iff in I as [o [<- O]].
        destruct (F2_in_r _ _ _ _ _ _ BK O) as [i [I (_ & _ & _ & B1 & B2)]]. cbn [inst_of si_notes si_bends si_ccs] in X. rewrite B1, B2 in X. cbn [map app] in X. rewrite app_nil_r in X.
        rewrite map_map in X. apply in_map_iff in X as [n [<- N]]. cbn. apply (OK o n O N).
      * rewrite ML in X. cbn [map] in X. rewrite app_nil_r in X. apply in_map_iff in X as [k [<- KK]]. pose proof (keys_sliced _ _ _ MK k KK). lra.
    + unfold tsigs in X. rewrite map_map in X. apply in_map_iff in X as [k [<- KK]]. cbn. pose proof (times_sliced _ _ _ MT k KK). lra.
    + apply in_map_iff in X as [k [<- KK]]. rewrite (Z3 k KK). lra.
  - destruct LAST as (o & n & O & N & EQ). rewrite <- EQ. apply (end_note tempi raw (inst_of o) (mkSN (rn_vel n) (rn_pitch n) (rn_start n) (rn_end n))); [rewrite RI; right; apply in_map; auto|]. cbn. apply in_map_iff. eauto.
Qed.
Lemma raw_one : forall s, so_tempos so = [s] -> (g_time s <= 0)%Q -> (0 < g_data s)%Q -> exists c0 c1, sg_pm raw = twice (mf_res f) c0 c1 /\ (c0 == 60 / (g_data s * inject_Z (mf_res f)))%Q /\ (c1 == 60 / (g_data s * inject_Z (mf_res f)))%Q.
Proof.
  intros s ES S0 QP. assert (R : m_res (so_ms so) = mf_res f).
  { apply read_res; auto. }
  assert (Hr : 0 < mf_res f) by (apply FO).
  destruct (raw_parts so (Some b) raw RW) as (t & p0 & l' & TT & PN & _ & _ & _ & PT & _). rewrite R, ES in *. replace (mf_res f =? 0) with false in PN by (symmetry; apply Z.eqb_neq; lia).
  assert (FQ : first_qpm [s] = g_data s). { destruct (first_in [s]) as [s' [[<-|[]] E]]; [discriminate|auto]. }
  rewrite FQ in PN. unfold pm_new in PN. destruct (scale_bpm_ok _ _ QP Hr) as [c0 [E0 [V0 P0]]]. rewrite E0 in PN. cbn [bind] in PN. apply Ok_inj in PN. subst p0.
  destruct (truncate_total t TT) as [TP _].
  assert (SL : slice_tempo [s] (Some t) = [s]).
  { unfold slice_tempo. cbn [filter]. replace (Qltb t (g_time s)) with false by (symmetry; apply Qltb_ge; lra). rewrite andb_false_r. reflexivity. }
  rewrite SL in PT. destruct (put_tempi_ok (mf_res f) [s] [(0, c0)] [] 0 (g_data s) Hr QP) with (s0 := c0) as [tl [E F]]; auto. { intros x [<-|[]]; auto. }
  rewrite E in PT. apply Ok_inj in PT. cbn [map combine] in F. inversion F as [|x [k c1] ? tl' F1 F2]; subst. inversion F2; subst. destruct F1 as (F1 & F3 & _). cbn [fst snd] in *. specialize (F3 S0). subst k.
  exists c0, c1. rewrite <- PT. split; [reflexivity|]. split; auto.
Qed.
End FILE.
