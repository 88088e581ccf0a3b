(** Lemmas for reading a MIDI file: pitch bends and control changes. *)
From Coq Require Import Sorted Permutation Lia Lqa Qabs Qround.
From Verif Require Import PyBase L_Base M_SortedDict M_Note L_Note L_Note2 M_Events M_Seq M_Seqs S_Seq M_Ticks S_Ticks L_Ticks M_Load S_Load L_Load L_Load2 L_Load4 L_Load5 M_Meta S_Meta L_Meta M_Song S_Song L_Song L_Song2 L_Song3 L_Song4 L_Song5 L_Song7 L_Song8.
From Verif Require M_Reader S_Reader L_Reader L_Reader3 S_Beats L_Beats5.
From Verif Require Import M_Pipe S_Pipe S_Pipe2 L_Pipe L_Pipe2.
Import M_Reader.
Open Scope Z_scope.

Section CTRL.
Variables (keynum : string -> res Z) (dc r : Z) (file : list ftrack).
Hypothesis Hr : 0 < r.
Hypothesis MF : midi_file keynum file.
Let tracks := map (view as_msg) file.
Let s := load_file dc tracks.
Let clock := clock_of r file.

Definition ibend (a : Z * Z) (b : Z * Q) : Prop := fst b = snd a /\ (snd b == clock (fst a))%Q.
Definition icc (a : Z * Z * Z) (b : Z * Z * Q) : Prop := fst (fst b) = snd (fst a) /\ snd (fst b) = snd a /\ (snd b == clock (fst (fst a)))%Q.

Lemma to_seconds_ctrl : forall p k i x c, (forall k q, py_nth (p_times p) k = Ok q -> 0 <= k -> (q == clock k)%Q) ->
  (forall b, In b (c_bends c) -> 0 <= fst b) -> (forall b, In b (c_ccs c) -> 0 <= fst (fst b)) ->
  inst_of s k = Some i -> ctrl_of s k = Some c -> to_seconds p s i = Ok x ->
  Forall2 ibend (c_bends c) (ri_bends (reader_inst x)) /\ Forall2 icc (c_ccs c) (ri_ccs (reader_inst x)).
Proof.
  intros p k i x c TT PB PC IO CO E. unfold ctrl_of in CO. rewrite IO in CO. unfold to_seconds in E. cbv zeta in E. rewrite CO in E.
  match type of E with bind ?y _ = _ => destruct y as [ns|] eqn:E1; [|discriminate] end. cbn [bind] in E.
  match type of E with bind ?y _ = _ => destruct y as [bs|] eqn:E2; [|discriminate] end. cbn [bind] in E.
  match type of E with bind ?y _ = _ => destruct y as [cs|] eqn:E3; [|discriminate] end. cbn [bind] in E.
  apply Ok_inj in E. subst x. apply mapM_inv in E2, E3. unfold reader_inst. cbn [ri_bends ri_ccs si_bends si_ccs]. split; apply F2_map_r.
  - clear - E2 PB TT. induction E2 as [|a b la lb H F IH]; constructor; [|apply IH; intros; apply PB; right; auto].
    destruct (py_nth (p_times p) (fst a)) as [u|] eqn:U; [|discriminate]. cbn in H. apply Ok_inj in H. subst b. split; [reflexivity|]. cbn. apply TT; auto. apply PB. left; auto.
  - clear - E3 PC TT. induction E3 as [|a b la lb H F IH]; constructor; [|apply IH; intros; apply PC; right; auto].
    destruct (py_nth (p_times p) (fst (fst a))) as [u|] eqn:U; [|discriminate]. cbn in H. apply Ok_inj in H. subst b. split; [reflexivity|]. split; [reflexivity|]. cbn. apply TT; auto. apply PC. left; auto.
Qed.
Lemma bends_in : forall ch evs b, In b (channel_bends ch evs) -> exists m, In (fst b, m) evs.
Proof.
  induction evs as [|[t m] l IH]; intros b B; cbn in B; [destruct B|].
  assert (G : In b (channel_bends ch l) -> exists m', In (fst b, m') ((t, m) :: l)) by (intros K; destruct (IH b K) as [m' M]; exists m'; right; auto).
  destruct m; auto. apply in_app_iff in B as [B|B]; auto. destruct (ch0 =? ch); [|destruct B]. destruct B as [<-|[]]. eexists. left. reflexivity.
Qed.
Lemma ccs_in : forall ch evs b, In b (channel_ccs ch evs) -> exists m, In (fst (fst b), m) evs.
Proof.
  induction evs as [|[t m] l IH]; intros b B; cbn in B; [destruct B|].
  assert (G : In b (channel_ccs ch l) -> exists m', In (fst (fst b), m') ((t, m) :: l)) by (intros K; destruct (IH b K) as [m' M]; exists m'; right; auto).
  destruct m; auto. apply in_app_iff in B as [B|B]; auto. destruct (ch0 =? ch); [|destruct B]. destruct B as [<-|[]]. eexists. left. reflexivity.
Qed.
Lemma played_pos : forall t e, In t file -> In e (played t) -> 0 <= fst e.
Proof.
  intros t e T E. unfold played in E. apply view_in in E as [y [Y ->]]. cbn [fst]. destruct MF as (_ & _ & V & _). apply (f_abs_ge t 0); auto. intros z Zz. apply (V t z); auto.
Qed.
Lemma read_file_ctrl : at_most 128 file -> exists so ks, read_file keynum dc r file = Ok so /\
  NoDup ks /\ (forall k, In k ks <-> exists a l, part file k (a :: l)) /\ StronglySorted (fun a b : ikey => snd a <= snd b) ks /\
  forall j k i t, nth_error ks j = Some k -> snd k = Z.of_nat i -> nth_error file i = Some t -> shared (snd (fst k)) (played t) ->
    exists q bs cs, trk (so_ms so) (Z.of_nat j) = Some q /\ i_num (q_instr q) = fst (fst k) /\ i_drum (q_instr q) = (snd (fst k) =? dc) /\
    selects (fun b => after_all clock file (clock (fst b))) (channel_bends (snd (fst k)) (played t)) bs /\ Forall2 (bend_at clock) bs (q_bends q) /\
    selects (fun c => after_all clock file (clock (fst (fst c)))) (channel_ccs (snd (fst k)) (played t)) cs /\ Forall2 (cc_at clock) cs (q_ccs q).
Proof.
  intros AM. destruct (load_total keynum dc r file Hr MF) as (p & d & is & last & evs & LB & TE & PL & CK & TL & LS & F & TT & KO & TO & _).
  fold tracks in F. fold s in F. fold clock in CK. fold clock in TT.
  assert (EX : exists evs, tempo_events evs /\ forall k, clock k = sum_to (tick_length r evs) k) by eauto.
  destruct (L_Beats5.tempo_map_loaded r evs last [] Hr TE TL LB) as (p' & m & PL' & GT & TM). assert (p' = p) by congruence. subst p'. cbn in GT.
  assert (PR : p_res p = r). { destruct (pm_load_ok r evs last Hr TE ltac:(lia) ltac:(lia)) as (p0 & m0 & E0 & _ & _ & _ & R0). congruence. }
  set (sg := M_Song.mkSong p d is) in *. set (f := reader_file sg m).
  assert (SP : Forall2 (fun e i => (S_Reader.inst_ok (reader_inst i) /\ ri_prog (reader_inst i) = fst (fst (fst e)) /\ ri_drum (reader_inst i) = (snd (fst (fst e)) =? dc) /\ Forall2 (rnote_at r file) (pi_notes (snd e)) (ri_notes (reader_inst i))) /\ to_seconds p s (snd e) = Ok i) (l_insts s) is).
  { revert F. apply Forall2_imp. intros [k i] x K _ E. cbn [fst snd] in *. split; auto. eapply to_seconds_spec; eauto. }
  assert (FI : S_Reader.file_ok f).
  { unfold S_Reader.file_ok, f, reader_file, sg. cbn. split; [lia|]. split; auto. split; [apply Forall_forall; apply TM|]. split; auto. split.
    - apply Forall_forall. intros x X. apply in_map_iff in X as [i [<- X]]. destruct (F2_in_r _ _ _ _ _ _ SP X) as [e [_ [[H _] _]]]. exact H.
    - rewrite map_length. rewrite <- (F2_len _ _ _ _ _ SP). rewrite <- (map_length fst). apply AM; [apply (keys_nodup dc file)|]. intros k K. apply (keys_parts keynum dc file MF). exact K. }
  destruct (L_Reader3.read_tracks f FI) as (so & RD & FE & NT & TR).
  destruct (L_Reader3.read_controllers f FI) as (so' & RD' & TC). rewrite RD in RD'. apply Ok_inj in RD'. subst so'.
  exists so, (map fst (l_insts s)). split.
  { unfold read_file. rewrite LS. cbn [bind sg_pm]. fold sg. change (sg_pm sg) with p. rewrite GT. cbn [bind]. exact RD. }
  split; [apply (keys_nodup dc file)|]. split; [apply (keys_parts keynum dc file MF)|]. split.
  { destruct (keys_track dc file) as [Ls [_ [EL C]]]. fold tracks in EL. fold s in EL. rewrite EL. apply (concat_sorted Ls 0). intros; rewrite (C j L e); auto. }
  (* the end of the piece *)
  assert (ND : forall k i, In (k, i) (l_insts s) -> forall a, In a (pi_notes i) -> 0 <= pn_start a <= pn_end a).
  { intros k i K a A. destruct (key_part keynum dc file MF k i K) as (t & n & NK & T & P & PM & _). eapply (note_facts keynum file MF t n); eauto. eapply Permutation_in; eauto. }
  assert (AL : forall k i a b, In (k, i) (l_insts s) -> In a (pi_notes i) -> rnote_at r file a b -> (S_Reader.audible b <-> lasting clock a)).
  { intros k i a b K A (_ & _ & R1 & R2). pose proof (ND k i K a A) as H. destruct (clock_mono r file Hr EX _ _ H) as [C1 C2]. unfold clock, lasting in *.
    rewrite audible_lasting by (rewrite ?R1, ?R2; lra). rewrite R1, R2. reflexivity. }
  assert (NOTES : forall b, (exists i, In i (mf_insts f) /\ In b (ri_notes i) /\ S_Reader.audible b) -> exists k l a, part file k l /\ In a l /\ lasting clock a /\ (rn_end b == clock (pn_end a))%Q).
  { intros b [i (I & B & AU)]. unfold f, reader_file, sg in I. cbn [mf_insts sg_insts] in I. apply in_map_iff in I as [x [<- X]].
    destruct (F2_in_r _ _ _ _ _ _ SP X) as [[k i] [K [(_ & _ & _ & XN) _]]]. cbn [fst snd] in *. destruct (F2_in_r _ _ _ _ _ _ XN B) as [a [A RA]].
    destruct (key_part keynum dc file MF k i K) as (t & n & NK & T & P & PM & _). exists k, (of_inst (fst (fst k)) (snd (fst k)) (denoted t)), a. split; auto. split; [eapply Permutation_in; eauto|].
    split; [apply (AL k i a b); auto|]. apply RA. }
  assert (NOTES' : forall k l a, part file k l -> In a l -> lasting clock a -> exists b, (exists i, In i (mf_insts f) /\ In b (ri_notes i) /\ S_Reader.audible b) /\ (rn_end b == clock (pn_end a))%Q).
  { intros k l a P A LA. assert (KI : In k (map fst (l_insts s))). { apply (keys_parts keynum dc file MF). destruct l as [|a0 l]; [destruct A|]. eauto. }
    apply in_map_iff in KI as [[k' i] [EK K]]. cbn in EK. subst k'. destruct (key_part keynum dc file MF k i K) as (t & n & NK & T & P' & PM & _).
    assert (EL : l = of_inst (fst (fst k)) (snd (fst k)) (denoted t)). { destruct P as (n' & t' & NK' & T' & ->). assert (n' = n) by lia. subst n'. congruence. } subst l.
    assert (A' : In a (pi_notes i)) by (eapply Permutation_in; [apply Permutation_sym; eauto|auto]).
    destruct (F2_in_l _ _ _ _ _ _ SP K) as [x [X [(_ & _ & _ & XN) _]]]. cbn [fst snd] in *. destruct (F2_in_l _ _ _ _ _ _ XN A') as [b [B RA]].
    exists b. split; [|apply RA]. exists (reader_inst x). split; [unfold f, reader_file, sg; cbn [mf_insts sg_insts]; apply in_map; auto|]. split; auto. apply (AL k i a b); auto. }
  assert (TOT : forall t, (S_Reader.has_audible f -> (so_total so <= t)%Q) <-> after_all clock file t).
  { intros t. unfold S_Reader.file_end in FE. cbv zeta in FE. destruct FE as [FE1 FE2]. split.
    - intros H k l a P A LA. destruct (NOTES' k l a P A LA) as [b [[i (I & B & AU)] E]]. rewrite <- E. eapply Qle_trans; [apply FE1; eauto|]. apply H. exists i, b. auto.
    - intros H [i [b (I & B & AU)]]. destruct FE2 as [[_ FE2]|[b' [B' E]]]; [exfalso; apply (FE2 b); eauto|]. destruct (NOTES b' B') as (k & l & a & P & A & LA & E').
      rewrite <- E, E'. eapply H; eauto. }
  intros j k n t J NK T SH. rewrite nth_error_map in J. destruct (nth_error (l_insts s) j) as [[k' i]|] eqn:N; [|discriminate]. cbn in J. injection J as ->.
  destruct (F2_nth_l _ _ _ _ _ SP j _ N) as [x [X [(IO & XP & XD & XN) XS]]]. cbn [fst snd] in *.
  assert (X' : nth_error (mf_insts f) j = Some (reader_inst x)) by (unfold f, reader_file, sg; cbn [mf_insts sg_insts]; apply map_nth_error; exact X).
  destruct (TR j (reader_inst x) X') as (q & Q1 & Q2 & Q3 & _).
  destruct (TC j (reader_inst x) X') as (q' & Q1' & [bs [B1 B2]] & [cs [C1 C2]]). rewrite Q1 in Q1'. injection Q1' as <-.
  pose proof (in_insts _ _ _ (keys_nodup dc file) (nth_error_In _ _ N)) as II.
  destruct SH as (l1 & l2 & SE & S1 & S2). destruct k as [[pr ch] tr]. cbn [fst snd] in *. subst tr.
  assert (CO : ctrl_of s (pr, ch, Z.of_nat n) = Some (mkC (channel_bends ch (played t)) (channel_ccs ch (played t)))).
  { rewrite <- played_abs. eapply C81_file with (l1 := l1) (l2 := l2); [apply (nth_tracks file n t T)|rewrite played_abs; exact SE|exact S1|exact S2|exact II]. }
  assert (TI : In t file) by (eapply nth_error_In; eauto).
  destruct (to_seconds_ctrl p (pr, ch, Z.of_nat n) i x (mkC (channel_bends ch (played t)) (channel_ccs ch (played t))) TT) as [G1 G2]; auto.
  { cbn [c_bends]. intros b B. destruct (bends_in _ _ _ B) as [m' M]. exact (played_pos t _ TI M). }
  { cbn [c_ccs]. intros b B. destruct (ccs_in _ _ _ B) as [m' M]. exact (played_pos t _ TI M). }
  cbn [c_bends c_ccs] in G1, G2.
  destruct (selects_F2 _ _ ibend (fun b => after_all clock file (clock (fst b))) (fun b => S_Reader.has_audible f -> (so_total so <= snd b)%Q) _ _ G1) with (kb := bs) as [kb [K1 K2]]; auto.
  { intros a b _ [_ E]. rewrite TOT. unfold after_all. split; intros H k l a' P A LA; [rewrite E|rewrite <- E]; eauto. }
  destruct (selects_F2 _ _ icc (fun c => after_all clock file (clock (fst (fst c)))) (fun b => S_Reader.has_audible f -> (so_total so <= snd b)%Q) _ _ G2) with (kb := cs) as [kc [K3 K4]]; auto.
  { intros a b _ (_ & _ & E). rewrite TOT. unfold after_all. split; intros H k l a' P A LA; [rewrite E|rewrite <- E]; eauto. }
  exists q, kb, kc. split; auto. split; [congruence|]. split; [congruence|]. split; auto. split.
  { clear - K2 B2. revert kb K2. induction B2 as [|b c kk l H F IH]; intros ka K2; inversion K2 as [|? ? ? ? HH]; subst; constructor; auto.
    destruct H as (A1 & t & A2 & A3). destruct HH as (H1 & H2). split; [congruence|]. exists t. split; auto. rewrite A3. auto. }
  split; auto.
  { clear - K4 C2. revert kc K4. induction C2 as [|b c kk l H F IH]; intros ka K4; inversion K4 as [|? ? ? ? HH]; subst; constructor; auto.
    destruct H as (A1 & A2 & A3). destruct HH as (H1 & H2 & H3). split; [congruence|]. split; [congruence|]. rewrite A3. auto. }
Qed.
End CTRL.
