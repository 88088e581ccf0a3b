(** Loading, saving and loading again: the theorem. *)
From Coq Require Import Sorted Permutation Lia Lqa Qabs Qround.
From Verif Require Import PyBase L_Base M_SortedDict M_Note L_Note L_Note2 M_Ticks S_Ticks L_Ticks M_Load S_Load L_Load L_Load2 L_Load5 M_Write S_Write M_Meta S_Meta L_Meta M_Song S_Song L_Song L_Song2 L_Song3 L_Song4 L_Song5 L_Song6 L_Song7.
Open Scope Z_scope.

Lemma abs_view : forall l t, to_abs t (view as_msg l) = view as_msg (f_abs t l).
Proof. induction l as [|[k m] l IH]; intros t; cbn; auto. f_equal. apply IH. Qed.
Lemma f_abs_ge : forall l t, (forall e, In e l -> 0 <= fst e) -> forall e, In e (f_abs t l) -> t <= fst e.
Proof.
  induction l as [|[d m] l IH]; intros t H e K; cbn in K; [tauto|]. pose proof (H _ (or_introl eq_refl)) as X. cbn in X. destruct K as [<-|K]; [cbn; lia|].
  specialize (IH (d + t) (fun e Y => H e (or_intror Y)) e K). lia.
Qed.
Lemma from_file_inv : forall keynum r tracks p d, 0 < r -> file_ok tracks -> from_file keynum r tracks = Ok (p, d) ->
  exists t0 rest last, tracks = t0 :: rest /\ 0 <= last /\ tempo_events (tempi_in (events_of t0)) /\ pm_load r (tempi_in (events_of t0)) last = Ok p /\
    load_metadata keynum p (mkMeta [] [] []) (events_of t0) = Ok d.
Proof.
  intros keynum r [|t0 rest] p d Hr FO H; [discriminate|].
  assert (NE : forall t, In t (t0 :: rest) -> t <> []).
  { intros t T E. subst t. unfold from_file in H. cbv zeta in H. cbn [map] in H. destruct (load_tempo r (tempi_of (absolute 0 t0))); [|discriminate]. cbn [bind] in H.
    rewrite each_max_err in H; [discriminate|]. change (absolute 0 t0 :: map (absolute 0) rest) with (map (absolute 0) (t0 :: rest)). apply in_map_iff. exists []. auto. }
  destruct (from_file_prefix keynum r t0 rest Hr FO NE) as [last [IL [L0 E]]]. rewrite E in H.
  destruct (pm_load r (tempi_in (events_of t0)) last) as [p'|] eqn:PL; [|discriminate]. cbn [bind] in H.
  destruct (load_metadata keynum p' _ _) as [d'|] eqn:LM; [|discriminate]. cbn [bind] in H. injection H as -> ->.
  exists t0, rest, last. split; [auto|]. split; [auto|]. split; [|split; auto].
  apply tempo_events_of; [intros e K; apply (proj1 FO t0); auto; left; auto|]. intros dd us K. eapply (proj2 FO); eauto.
Qed.
Lemma table_time : forall r evs last p k q, 0 < r -> tempo_events evs -> 0 <= last -> pm_load r evs last = Ok p -> 0 <= k -> py_nth (p_times p) k = Ok q ->
  (q == sum_to (tick_length r evs) k)%Q.
Proof.
  intros r evs last p k q Hr TE L0 PL K N.
  assert (LM : last < MAX_TICK). { destruct (Z_lt_le_dec last MAX_TICK); auto. rewrite (pm_load_reject r evs last Hr TE l) in PL. discriminate. }
  destruct (pm_load_ok r evs last Hr TE L0 LM) as (p1 & m & E1 & LT & LV & PI & PR). rewrite PL in E1. injection E1 as <-.
  destruct PI as [_ [_ G]]. unfold py_nth in N. cbv zeta in N. destruct (Z.ltb_spec k 0); [lia|]. destruct (Z.ltb_spec k 0); [lia|].
  destruct (nth_error (p_times p) (Z.to_nat k)) as [x|] eqn:NE; [|discriminate]. apply Ok_inj in N. subst x.
  assert (LN : (Z.to_nat k < List.length (p_times p))%nat) by (apply nth_error_Some; congruence).
  destruct (G k ltac:(lia)) as [q' [N' E']]. rewrite NE in N'. injection N' as <-. rewrite E'. apply T_ext. apply LV.
Qed.

Lemma reload : forall keynum dc r file sg1 file2, 0 < r -> knows_keys keynum -> clean_file file -> load_song keynum dc r file = Ok sg1 ->
  serialize dc sg1 [] = Ok file2 -> short file2 ->
  exists sg2, load_song keynum dc r file2 = Ok sg2 /\ same_song (fun t t' => (t' == t)%Q) sg1 sg2 /\
    (forall ops ops' k, 0 <= k < MAX_TICK -> exists t t', fst (tick_to_time (pm_run (sg_pm sg1) ops) k) = Ok t /\ fst (tick_to_time (pm_run (sg_pm sg2) ops') k) = Ok t' /\ (t' == t)%Q).
Proof.
  intros keynum dc r file sg1 file2 Hr HK (C1 & C2 & C3) LS SE SH. unfold load_song in LS.
  destruct (from_file keynum r (map (view as_meta) file)) as [[p d]|] eqn:FF; [|discriminate]. cbn [bind fst snd] in LS. cbv zeta in LS.
  set (tracks := map (view as_msg) file) in *. set (s := load_file dc tracks) in *.
  destruct (mapM (fun e => to_seconds p s (snd e)) (l_insts s)) as [is|] eqn:MM; [|discriminate]. cbn [bind] in LS. apply Ok_inj in LS. subst sg1.
  assert (FO : file_ok (map (view as_meta) file)).
  { split.
    - intros t e T E. apply in_map_iff in T as [t' [<- T]]. apply view_in in E as [x [X ->]]. cbn. eapply C1; eauto.
    - intros t0 rest dd us E K. destruct file as [|f0 fr]; [discriminate|]. cbn in E. injection E as <- _. apply view_in in K as [[dx mx] [X E]]. cbn in E. injection E as -> E.
      destruct mx as [m|m]; [|discriminate]. cbn in E. subst m. eapply C2; eauto. }
  destruct (from_file_inv keynum r _ p d Hr FO FF) as (t0 & rest & last & ET & L0 & TE & PL & LM).
  set (evs := tempi_in (events_of t0)) in *. set (clock := sum_to (tick_length r evs)) in *.
  set (G := fun q => exists k, 0 <= k /\ (q == clock k)%Q).
  assert (TAB : forall k q, 0 <= k -> py_nth (p_times p) k = Ok q -> (q == clock k)%Q) by (intros k q K N; exact (table_time r evs last p k q Hr TE L0 PL K N)).
  assert (EXACT : forall k q, 0 <= k -> py_nth (p_times p) k = Ok q -> time_to_tick p q = Ok k).
  { intros k q K N. destruct (C37a r evs last p [] Hr TE L0 PL) as [_ [E _]]. apply (E k q K). apply TAB; auto. }
  assert (SP : sP (fun k => 0 <= k) s).
  { apply file_sP. intros t e T E. unfold tracks in T. apply in_map_iff in T as [t' [<- T]]. rewrite abs_view in E. apply view_in in E as [x [X ->]]. cbn.
    apply (f_abs_ge t' 0); auto. intros y Y. eapply C1; eauto. }
  apply mapM_inv in MM.
  assert (INV : forall e i, In e (l_insts s) -> to_seconds p s (snd e) = Ok i ->
    Forall2 (fun n o => sn_vel o = pn_vel n /\ sn_pitch o = pn_pitch n /\ py_nth (p_times p) (pn_start n) = Ok (sn_start o) /\ py_nth (p_times p) (pn_end n) = Ok (sn_end o)) (pi_notes (snd e)) (si_notes i) /\
    (forall q, In q (map fst (si_bends i) ++ map (fun c => fst (fst c)) (si_ccs i)) -> exists k, 0 <= k /\ py_nth (p_times p) k = Ok q)).
  { intros e i IE E. unfold to_seconds in E. cbv zeta in E.
    destruct (mapM _ (pi_notes (snd e))) as [ns|] eqn:E1; [|discriminate]. cbn [bind] in E.
    destruct (mapM _ (c_bends _)) as [bs|] eqn:E2; [|discriminate]. cbn [bind] in E.
    destruct (mapM _ (c_ccs _)) as [cs|] eqn:E3; [|discriminate]. cbn [bind] in E. apply Ok_inj in E. subst i. cbn [si_notes si_bends si_ccs].
    apply mapM_inv in E1, E2, E3. split.
    - eapply Forall2_imp; [|exact E1]. cbn. intros a b _ _ K. destruct (py_nth _ (pn_start a)) as [x|]; [|discriminate]. cbn [bind] in K. destruct (py_nth _ (pn_end a)) as [y|]; [|discriminate]. cbn [bind] in K.
      injection K as <-. cbn. auto.
    - assert (CP : cP (fun k => 0 <= k) match nth_error (l_cells s) (pi_cell (snd e)) with Some c => c | None => mkC [] [] end).
      { destruct (nth_error _ _) eqn:NE; [apply SP; eapply nth_error_In; eauto|]. split; intros ? []. }
      destruct CP as [CP1 CP2]. intros q K. apply in_app_iff in K as [K|K]; apply in_map_iff in K as [o [<- K]].
      + destruct (F2_in_r _ _ _ _ _ _ E2 K) as [b [B1 B2]]. exists (fst b). split; [apply CP1; auto|]. destruct (py_nth _ (fst b)); [|discriminate]. cbn in B2. injection B2 as <-. reflexivity.
      + destruct (F2_in_r _ _ _ _ _ _ E3 K) as [b [B1 B2]]. exists (fst (fst b)). split; [apply CP2; auto|]. destruct (py_nth _ (fst (fst b))); [|discriminate]. cbn in B2. injection B2 as <-. reflexivity. }
  set (sg1 := mkSong p d is) in *.
  assert (ON : forall q, In q (all_times sg1) -> G q).
  { intros q K. unfold all_times, sg1 in K. cbn [sg_meta sg_insts] in K. destruct K as [<-|K]; [exists 0; split; [lia|]; unfold clock; rewrite sum_to_0; reflexivity|].
    assert (X : In q (md_all d) \/ In q (flat_map inst_times is)) by (unfold md_all; rewrite !in_app_iff in *; tauto). destruct X as [X|X].
    - revert X. revert q K. intros q _. apply (metadata_times G keynum p (events_of t0) (mkMeta [] [] []) d); auto; [|intros ? []].
      intros e q' E N. exists (fst e). assert (0 <= fst e).
      { rewrite <- absolute_events in E. eapply absolute_ge; [|exact E]. intros x X. apply (proj1 FO t0); auto. rewrite ET. left; auto. }
      split; auto.
    - apply in_flat_map in X as [i [I X]]. destruct (F2_in_r _ _ _ _ _ _ MM I) as [e [E1 E2]]. destruct (INV e i E1 E2) as [F B].
      unfold inst_times in X. apply in_app_iff in X as [X|X].
      + apply in_flat_map in X as [o [O1 O2]]. destruct (F2_in_r _ _ _ _ _ _ F O1) as [n [N1 (_ & _ & N2 & N3)]]. destruct (proj1 SP e n E1 N1) as [S1 S2].
        destruct O2 as [<-|[<-|[]]]; [exists (pn_start n)|exists (pn_end n)]; split; auto.
      + destruct (B q X) as [k [K1 K2]]. exists k. split; auto. }
  assert (PLAY : forall i, In i (sg_insts sg1) -> playable (sg_pm sg1) i).
  { cbn [sg1 sg_insts sg_pm]. intros i I. destruct (F2_in_r _ _ _ _ _ _ MM I) as [[[[pr ch] tr] ins] [E1 E2]]. destruct (INV _ i E1 E2) as [F _]. cbn [snd] in F.
    assert (ND : nodup_keys s) by (unfold s, load_file; apply nodup_tracks; constructor).
    destruct (tracks_append dc (map (to_abs 0) tracks) l_empty 0) as [Ls [A1 [A2 A3]]]; [intros e []|].
    change (load_tracks dc l_empty 0 (map (to_abs 0) tracks)) with s in A2. cbn [l_empty l_insts app] in A2.
    pose proof E1 as E1'. rewrite A2 in E1'. apply in_concat in E1' as [L [LI LE]]. apply In_nth_error in LI as [j NJ]. pose proof (A3 j L _ NJ LE) as TR. cbn [fst snd] in TR. rewrite Z.add_0_l in TR.
    assert (JL : (j < List.length tracks)%nat) by (rewrite <- (map_length (to_abs 0)), <- A1; apply nth_error_Some; rewrite NJ; discriminate).
    destruct (nth_error tracks j) as [tk|] eqn:NT; [|apply nth_error_None in NT; lia].
    pose proof (nth_error_In _ _ NT) as TI. unfold tracks in TI. apply in_map_iff in TI as [ft [ETk FI]].
    destruct (C3 ft FI) as [D1 D2].
    assert (POS : forall x, In x tk -> 0 <= fst x). { intros x X. rewrite <- ETk in X. apply view_in in X as [y [Y ->]]. cbn. eapply C1; eauto. }
    assert (FM : forall k m, In (k, m) (view as_msg (f_abs 0 ft)) -> m <> M_Load.MOther -> In (k, FMsg m) (f_abs 0 ft)).
    { intros k m X N. apply view_in in X as [[ky my] [Y E]]. cbn in E. injection E as -> ->. destruct my; [cbn in N; congruence|]. exact Y. }
    assert (DB : no_double (to_abs 0 tk)).
    { rewrite <- ETk, abs_view. intros l1 l2 l3 t c n v w E V W. unfold view in E.
      apply map_eq_app in E as [x1 [x2 [E [X1 X2]]]]. destruct x2 as [|y1 x2]; [discriminate|]. cbn [map] in X2. injection X2 as Y1 Y2 X2.
      apply map_eq_app in X2 as [x3 [x4 [E' [X3 X4]]]]. destruct x4 as [|y2 x4]; [discriminate|]. cbn [map] in X4. injection X4 as Z1 Z2 X4.
      destruct y1 as [k1 m1], y2 as [k2 m2]. cbn in *. subst k1 k2. destruct m1; [discriminate|]. destruct m2; [discriminate|]. cbn in Y2, Z2. subst m m0 x2.
      eapply D1; eauto. }
    assert (EA : forall t c n v te, In (t, MOn c n v) (to_abs 0 tk) -> 0 < v -> In (te, MEnd) (to_abs 0 tk) -> t < te).
    { rewrite <- ETk, abs_view. intros t c n v te X V Y. eapply (D2 t c n v te); auto; apply FM; auto; discriminate. }
    assert (I0 : inst_of s (pr, ch, tr) = Some ins) by (apply in_insts; auto).
    destruct (C40_file dc tracks j tk pr ch NT POS DB) as [CP CS]. fold s in CP. rewrite <- TR in CP. unfold notes_of in CP. rewrite I0 in CP.
    pose proof (abs_ascending tk 0 POS) as ASC.
    assert (BOTH : forall n, In n (pi_notes ins) -> pn_start n < pn_end n /\ 0 < pn_vel n).
    { intros n N. apply (Permutation_in _ CP) in N. apply of_inst_In in N. apply (notes_last _ _ _ ASC EA) in N. exact N. }
    split.
    - intros n N. destruct (F2_in_r _ _ _ _ _ _ F N) as [x [X (-> & _)]]. apply BOTH; auto.
    - exists (pi_notes ins). split.
      + clear - F SP E1 EXACT. assert (SN : forall n, In n (pi_notes ins) -> nP (fun k => 0 <= k) n) by (intros n N; apply (proj1 SP _ _ E1 N)). clear E1.
        induction F as [|n o ln lo (A & B & C & D) F IH]; constructor; [|apply IH; intros; apply SN; right; auto].
        destruct (SN n (or_introl eq_refl)). unfold on_ticks. repeat split; auto.
      + split; [intros n N; apply BOTH; auto|]. split.
        * intros l1 a l2 b l3 E ES. eapply nodup_apart; [|exact E|exact ES].
          eapply Permutation_NoDup; [apply Permutation_map, Permutation_sym, CP|]. apply of_inst_nodup; auto.
        * intros a b A B AB.
          assert (NO : forall x, In x (pi_notes ins) -> In x (notes_of (load_file dc tracks) (pr, ch, Z.of_nat j))) by (intros x X; fold s; rewrite <- TR; unfold notes_of; rewrite I0; auto).
          destruct (C82_file dc tracks j tk pr ch pr ch a b NT POS DB (NO a A) (NO b B)) as [_ C82]. auto. }
  assert (SO : signatures_ok (sg_meta sg1)).
  { cbn. eapply metadata_sig; [exact LM|]. split; intros ? []. }
  destruct (loaded_round keynum dc r evs last p [] sg1 file2) as [sg2 [R1 [R2 R3]]]; auto.
  exists sg2. split; auto. split.
  - eapply same_song_imp; [|exact R2]. intros x X t [_ K]. destruct (ON x X) as [k [K1 K2]]. eapply K; eauto.
  - intros ops ops' k K. destruct (C36a r evs last Hr TE L0) as [_ C].
    assert (LMx : last < MAX_TICK). { destruct (Z_lt_le_dec last MAX_TICK); auto. rewrite (pm_load_reject r evs last Hr TE l) in PL. discriminate. }
    destruct (C LMx) as [p' [E' C']]. rewrite PL in E'. injection E' as <-. destruct (C' ops k ltac:(lia)) as [_ C'']. destruct (C'' ltac:(lia)) as [t [T1 T2]].
    destruct (R3 ops' k K) as [t' [T1' T2']]. exists t, t'. cbn [sg1 sg_pm]. repeat split; auto. rewrite T2, T2'. reflexivity.
Qed.
