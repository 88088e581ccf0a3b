(** Lemmas on to_pretty_midi: the raw piece, its end, its rhythm. *)
From Coq Require Import Lqa Lia Sorted Permutation.
From Verif Require Import PyBase L_Base M_Beats L_Beats5 M_Adjust S_Adjust L_Adjust L_Adjust2 L_Adjust3 L_Adjust4 M_SortedDict M_Note L_Note M_Events M_Seq S_Seq L_Seq M_Seqs M_Ticks S_Ticks L_Ticks M_Load M_Write M_Meta M_Song M_Reader S_Reader L_Reader L_Reader2 L_Reader3 M_Pipe M_Tempi S_Tempi L_Tempi L_Tempi2 M_Convert S_Convert L_Convert L_Convert2.
Open Scope Z_scope.

Lemma truncate_value : forall s e t, truncate_to s (Some e) = Ok t -> ms_events s <> [] /\ t = max_end (ms_events s).
Proof.
  intros s e t H. unfold truncate_to, ms_truncate in H. destruct (ms_events s) as [|n l] eqn:E; [discriminate|]. split; [discriminate|].
  destruct (ms_trim s e _) as [[u|x] s1]; [|discriminate]. apply Ok_inj in H. auto.
Qed.
Lemma events_note : forall so n, In n (ms_events (so_ms so)) <-> note_of so n.
Proof.
  intros so n. unfold ms_events, note_of. split; intro H.
  - apply (Permutation_in _ (Permutation_sym (py_sort_perm start_lt _))) in H. apply in_flat_map in H. exact H.
  - apply (Permutation_in _ (py_sort_perm start_lt _)). apply in_flat_map. exact H.
Qed.
Lemma truncate_last : forall so e t, truncate_to (so_ms so) (Some e) = Ok t -> last_end so t.
Proof.
  intros so e t H. destruct (truncate_value _ _ _ H) as [NE ->]. destruct (max_end_spec (ms_events (so_ms so))) as [M1 [M2 _]]. split.
  - intros n N. apply M1, events_note; auto.
  - destruct (M2 NE) as [n [N1 N2]]. exists n. split; auto. apply events_note; auto.
Qed.
Lemma raw_parts : forall so e raw, convert_raw so e = Ok raw -> exists t p0 l,
  truncate_to (so_ms so) e = Ok t /\ pm_new (if m_res (so_ms so) =? 0 then DEFAULT_PPQ else m_res (so_ms so)) (first_qpm (so_tempos so)) = Ok p0 /\
  put_times (slice_time (so_times so) (Some t)) = Ok (md_times (sg_meta raw)) /\ put_keys (slice_key (so_keys so) (Some t)) = Ok (md_keys (sg_meta raw)) /\
  md_lyrics (sg_meta raw) = [] /\ put_tempi p0 (slice_tempo (so_tempos so) (Some t)) = Ok (sg_pm raw) /\
  to_instruments so e = Ok l /\ sg_insts raw = map inst_of l.
Proof.
  intros so e raw H. unfold convert_raw in H. cbv zeta in H. unfold to_instruments. destruct (truncate_to (so_ms so) e) as [t|x]; cbn [bind] in *; [|discriminate].
  destruct (pm_new _ _) as [p0|x]; cbn [bind] in *; [|discriminate]. destruct (put_times _) as [ts|x] eqn:E1; cbn [bind] in *; [|discriminate].
  destruct (put_keys _) as [ks|x] eqn:E2; cbn [bind] in *; [|discriminate]. destruct (put_tempi _ _) as [p1|x] eqn:E3; cbn [bind] in *; [|discriminate].
  destruct (conv_insts _ _ _) as [l|x] eqn:E4; cbn [bind] in *; [|discriminate]. apply Ok_inj in H. subst raw. cbn. exists t, p0, (mkRI 0 false "" [] [] [] :: l).
  auto 10.
Qed.
Lemma mapM_snd : forall A B (f : A -> res B) (g : B -> Q) (h : A -> Q) l l', (forall a b, f a = Ok b -> g b = h a) -> mapM f l = Ok l' -> map g l' = map h l.
Proof.
  intros A B f g h l. induction l as [|a l IH]; intros l' H E; cbn in E; [apply Ok_inj in E; subst; reflexivity|].
  destruct (f a) as [b|x] eqn:F; cbn in E; [|discriminate]. destruct (mapM f l) as [w|x]; cbn in E; [|discriminate]. apply Ok_inj in E. subst l'. cbn. rewrite (H _ _ F). f_equal. apply IH; auto.
Qed.
Lemma times_sliced : forall so t l, put_times (slice_time (so_times so) (Some t)) = Ok l -> forall x, In x l -> (snd x <= t)%Q.
Proof.
  intros so t l H x X. unfold put_times in H. apply (mapM_snd _ _ _ snd g_time) in H.
  - assert (I : In (snd x) (map snd l)) by (apply in_map; auto). rewrite H in I. apply in_map_iff in I as [s [<- I]]. apply filter_In in I as [_ I]. destruct (Qltb t (g_time s)) eqn:L; [discriminate|]. apply Qltb_ge in L. auto.
  - intros s b. destruct (_ && _); [|discriminate]. intro K. apply Ok_inj in K. subst b. reflexivity.
Qed.
Lemma keys_sliced : forall so t l, put_keys (slice_key (so_keys so) (Some t)) = Ok l -> forall x, In x l -> (snd x <= t)%Q.
Proof.
  intros so t l H x X. unfold put_keys in H. apply (mapM_snd _ _ _ snd g_time) in H.
  - assert (I : In (snd x) (map snd l)) by (apply in_map; auto). rewrite H in I. apply in_map_iff in I as [s [<- I]]. apply filter_In in I as [_ I]. destruct (Qltb t (g_time s)) eqn:L; [discriminate|]. apply Qltb_ge in L. auto.
  - intros s b. cbv zeta. destruct (_ && _); [|discriminate]. intro K. apply Ok_inj in K. subst b. reflexivity.
Qed.

Lemma put_tempi_zero : forall l p p', (forall s, In s l -> (g_time s <= 0)%Q) -> p_times p = [0%Q] -> (forall e, In e (M_Ticks.p_scales p) -> fst e = 0) ->
  put_tempi p l = Ok p' -> p_times p' = [0%Q] /\ (forall e, In e (M_Ticks.p_scales p') -> fst e = 0).
Proof.
  induction l as [|s l IH]; intros p p' H E Z0 K; cbn [put_tempi] in K; [apply Ok_inj in K; subst; auto|].
  unfold put_tempo in K. destruct (scale_of_bpm _ _) as [sc|x]; cbn [bind] in K; [|discriminate].
  assert (T : time_to_tick p (g_time s) = Ok 0).
  { unfold time_to_tick. rewrite E. assert (B : bisect_left Qltb [0%Q] (g_time s) = 0%nat). { unfold bisect_left. cbn. replace (Qltb 0 (g_time s)) with false; auto. symmetry; apply Qltb_ge. apply H. left; auto. } rewrite B. reflexivity. }
  rewrite T in K. cbn [bind] in K. apply IH in K; auto; [intros; apply H; right; auto|]. cbn. intros e He. apply in_app_iff in He as [He|[<-|[]]]; auto.
Qed.
Lemma changes_zero : forall l p out p', p_times p = [0%Q] -> (forall e, In e l -> fst e = 0) -> tempo_changes_loop p l = (Ok out, p') -> forall o, In o out -> fst o = 0%Q.
Proof.
  induction l as [|[k s] l IH]; intros p out p' E Z0 K o O; cbn [tempo_changes_loop] in K; [injection K as <- <-; destruct O|].
  assert (k = 0) by (apply (Z0 (k, s)); left; auto). subst k. assert (T : tick_to_time p 0 = (Ok 0%Q, p)).
  { unfold tick_to_time. change (MAX_TICK <=? 0) with false. cbv zeta. replace (Z.of_nat (List.length (p_times p)) <=? 0) with false by (rewrite E; reflexivity). cbv iota. rewrite E. reflexivity. }
  rewrite T in K. destruct (Qeq_bool _ 0); [discriminate|]. destruct (tempo_changes_loop p l) as [[w|x] p2] eqn:R; [|discriminate]. injection K as <- <-.
  destruct O as [<-|O]; [reflexivity|]. apply (IH p w p2 E (fun e He => Z0 e (or_intror He)) R o O).
Qed.

Lemma end_ge : forall l x, In x l -> (x <= end_time l)%Q.
Proof. intros l x H. destruct (end_time_spec l) as [_ K]. apply K; auto. intro E. subst. destruct H. Qed.
Lemma end_le : forall l b, (0 <= b)%Q -> (forall x, In x l -> (x <= b)%Q) -> (end_time l <= b)%Q.
Proof. intros l b B H. destruct (end_time_spec l) as [K1 K2]. destruct l as [|a l]; [rewrite K1; auto|]. apply H, K2. discriminate. Qed.
Lemma end_note : forall tempi raw i n, In i (sg_insts raw) -> In n (si_notes i) -> (sn_end n <= piece_end tempi (tsigs (sg_meta raw)) (other_times raw))%Q.
Proof.
  intros tempi raw i n I N. apply Qle_trans with (inst_end i).
  - apply end_ge. apply in_app_iff. left. apply in_map; auto.
  - apply end_ge. apply in_app_iff. left. unfold other_times. apply in_app_iff. left. apply in_map; auto.
Qed.

Lemma gap_pair : forall l, StronglySorted Qle l -> forall g, In g (gaps l) -> exists a b, In a l /\ In b l /\ g = (b - a)%Q /\ forall c, In c l -> ~ (a < c /\ c < b)%Q.
Proof.
  induction l as [|x l IH]; intros H g G; [destruct G|]. inversion H as [|? ? H1 H2]; subst. rewrite Forall_forall in H2. destruct l as [|y l]; [destruct G|]. cbn [gaps tl combine map] in G. destruct G as [<-|G].
  - exists x, y. cbn [fst snd]. split; [left; auto|]. split; [right; left; auto|]. split; auto. inversion H1 as [|? ? H3 H4]; subst. rewrite Forall_forall in H4. intros c [<-|[<-|C]] K; try lra. specialize (H4 c C). lra.
  - destruct (IH H1 g G) as (a & b & A & B & -> & N). exists a, b. split; [right; auto|]. split; [right; auto|]. split; auto. intros c [<-|C] K; [|apply (N c C K)]. specialize (H2 a A). lra.
Qed.
Lemma pair_gap : forall l, StronglySorted Qle l -> forall a b, In a l -> In b l -> (a < b)%Q -> (forall c, In c l -> ~ (a < c /\ c < b)%Q) -> exists g, In g (gaps l) /\ (g == b - a)%Q.
Proof.
  induction l as [|x l IH]; intros H a b A B L N; [destruct A|]. inversion H as [|? ? H1 H2]; subst. rewrite Forall_forall in H2. destruct l as [|y l].
  - destruct A as [<-|[]], B as [<-|[]]. lra.
  - assert (GC : gaps (x :: y :: l) = (y - x)%Q :: gaps (y :: l)) by reflexivity. rewrite GC.
    destruct B as [<-|B]; [destruct A as [<-|A]; [lra|specialize (H2 a A); lra]|].
    assert (NT : forall c, In c (y :: l) -> ~ (a < c /\ c < b)%Q) by (intros c C; apply N; right; auto).
    destruct A as [<-|A]; [|destruct (IH H1 a b A B L NT) as [g [G1 G2]]; exists g; split; auto; right; auto].
    destruct (Qlt_le_dec x y) as [XY|XY].
    + inversion H1 as [|? ? H3 H4]; subst. rewrite Forall_forall in H4. assert (y <= b)%Q by (destruct B as [<-|B]; [lra|apply H4; auto]). assert (b == y)%Q. { destruct (Qlt_le_dec y b) as [X|X]; [exfalso; apply (N y); [right; left; auto|auto]|lra]. }
      exists (y - x)%Q. split; [left; auto|]. lra.
    + assert (x == y)%Q by (specialize (H2 y (or_introl eq_refl)); lra). destruct (IH H1 y b) as [g [G1 G2]]; auto; [left; auto|lra| |exists g; split; [right; auto|lra]].
      intros c C K. apply (NT c C). lra.
Qed.
Lemma rhythm_iff : forall insts, let l := flat_map si_notes insts in
  has_rhythm l <-> exists g, In g (gaps (get_onsets (map (fun i => map sn_start (si_notes i)) insts))) /\ rhythmic g.
Proof.
  intros insts l. destruct (onsets_spec (map (fun i => map sn_start (si_notes i)) insts)) as [P S]. set (on := get_onsets _) in *.
  assert (M : forall x, In x on <-> exists n, In n l /\ x = sn_start n).
  { intro x. split; intro H.
    - eapply Permutation_in in H; [|exact P]. apply in_concat in H as [w [W X]]. apply in_map_iff in W as [i [<- I]]. apply in_map_iff in X as [n [<- N]]. exists n. split; auto. apply in_flat_map. eauto.
    - destruct H as [n [N ->]]. eapply Permutation_in; [apply Permutation_sym; exact P|]. apply in_flat_map in N as [i [I N]]. apply in_concat. eexists. split; [apply in_map; exact I|]. apply in_map; auto. }
  split.
  - intros (a & b & A & B & L1 & L2 & N). destruct (pair_gap on S (sn_start a) (sn_start b)) as [g [G1 G2]]; [apply M; eauto|apply M; eauto|lra| |].
    + intros c C K. apply M in C as [n [C ->]]. apply (N n C K).
    + exists g. split; auto. split; lra.
  - intros [g [G [R1 R2]]]. destruct (gap_pair on S g G) as (a & b & A & B & E & N). apply M in A as [x [A ->]]. apply M in B as [y [B ->]]. subst g. exists x, y. split; auto. split; auto. split; auto. split; auto.
    intros c C. apply N. apply M. eauto.
Qed.
Lemma log_rhythm : forall srt sg sg', argsorts srt -> convert_log srt sg = Ok sg' -> has_rhythm (flat_map si_notes (sg_insts sg)) /\ sg_insts sg' = sg_insts sg /\ sg_meta sg' = sg_meta sg.
Proof.
  intros srt sg sg' A H. unfold convert_log, song_end in H. destruct (get_tempo_changes (sg_pm sg)) as [[tempi|e] p]; cbn [bind] in H; [|discriminate].
  destruct (estimate_tempo srt _) as [q|e] eqn:E; cbn [bind] in H; [|discriminate]. apply Ok_inj in H. subst sg'. cbn. split; auto.
  apply rhythm_iff. set (on := get_onsets _) in *. destruct (tempo_spec srt on A) as [T1 _].
  destruct (Exists_dec (fun g => rhythmic g) (gaps on)) as [X|X].
  - intro g. unfold rhythmic. destruct (Qlt_le_dec (1 # 20) g); [destruct (Qlt_le_dec g 2)|]; [left; auto|right; intros [? ?]; lra|right; intros [? ?]; lra].
  - apply Exists_exists in X. exact X.
  - exfalso. assert (estimate_tempo srt on = Err ValueError); [|congruence]. apply T1. intros g G R. apply X. apply Exists_exists. eauto.
Qed.
Lemma log_fails : forall srt sg, argsorts srt -> ~ has_rhythm (flat_map si_notes (sg_insts sg)) -> exists e, convert_log srt sg = Err e.
Proof. intros srt sg A N. destruct (convert_log srt sg) as [x|e] eqn:E; [|eauto]. exfalso. apply N. eapply log_rhythm; eauto. Qed.
