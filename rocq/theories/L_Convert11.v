(** Lemmas on to_pretty_midi: the signatures of the result. *)
From Coq Require Import Lqa Lia Sorted Permutation.
From Verif Require Import PyBase L_Base M_Beats L_Beats L_Beats5 M_Adjust S_Adjust L_Adjust L_Adjust2 L_Adjust3 L_Adjust4 M_SortedDict M_Note L_Note M_Events M_Seq S_Seq L_Seq M_Seqs M_Ticks S_Ticks L_Ticks M_Load M_Write M_Meta M_Song M_Reader S_Reader L_Reader L_Reader2 L_Reader3 M_Pipe M_Tempi S_Tempi L_Tempi L_Tempi2 M_Convert S_Convert L_Convert L_Convert2 L_Convert3 L_Convert4.
Open Scope Z_scope.

(** The first downbeat is the first beat. *)
Lemma every_head : forall n x l, exists r, every n (x :: l) = x :: r.
Proof. intros n x l. unfold every. cbn [every_from]. eauto. Qed.
Lemma spans_head : forall rest x l s d, index_close (x :: l) (ts_time s) 0 = 0%nat -> down_spans (x :: l) 0 s rest = Ok d -> exists r, d = x :: r.
Proof.
  induction rest as [|s' rest IH]; intros x l s d I H; cbn [down_spans] in H; rewrite I in H.
  - cbn [skipn] in H. unfold stride in H. destruct (bar_step (ts_num s)) as [|n]; [discriminate|]. apply Ok_inj in H. subst d. apply every_head.
  - cbv zeta in H. destruct (index_close (x :: l) (ts_time s') 0) as [|j] eqn:J.
    + cbn in H. unfold stride in H. destruct (bar_step (ts_num s)) as [|n]; [discriminate|]. cbn [bind] in H. change (every (Datatypes.S n) []) with (@nil Q) in H.
      destruct (down_spans (x :: l) 0 s' rest) as [w|z] eqn:D; cbn [bind] in H; [|discriminate]. apply Ok_inj in H. cbn [app] in H. subst d. apply (IH x l s' w J D).
    + unfold slice in H. cbn [skipn] in H. replace (Datatypes.S j - 0)%nat with (Datatypes.S j) in H by lia. cbn [firstn] in H. unfold stride in H. destruct (bar_step (ts_num s)) as [|n]; [discriminate|].
      cbn [bind] in H. destruct (every_head (Datatypes.S n) x (firstn j l)) as [r E]. rewrite E in H. destruct (down_spans _ _ _ _) as [w|z]; cbn [bind] in H; [|discriminate]. apply Ok_inj in H. subst d. cbn [app]. eauto.
Qed.
Lemma init_last : forall tempi sigs start st, beats_init tempi sigs start = Ok st -> b_last st = start.
Proof.
  intros tempi sigs start st H. unfold beats_init in H. destruct tempi as [|[t q0] rest]; [discriminate|]. destruct (skip_tempo start q0 rest) as [q r].
  destruct sigs as [|s ss]; [apply Ok_inj in H; subst; reflexivity|]. destruct (skip_sigs start true s ss) as [f [s' r']]. apply Ok_inj in H; subst; reflexivity.
Qed.
Lemma first_down : forall fuel tempi sigs others downs, (0 < piece_end tempi (sort_sigs sigs) others)%Q -> (forall s, In s sigs -> (0 <= ts_time s)%Q) ->
  get_downbeats fuel tempi sigs others 0 = Ok (Some downs) -> exists r, downs = 0%Q :: r.
Proof.
  intros fuel tempi sigs others downs E NN H. unfold get_downbeats, get_beats in H. destruct (beats_init tempi (sort_sigs sigs) 0) as [st|x] eqn:B; cbn [bind] in H; [|discriminate].
  apply init_last in B. set (stop := piece_end _ _ _) in *. destruct (beat_loop fuel stop st) as [l|] eqn:L; [|discriminate].
  assert (HL : exists r, l = 0%Q :: r).
  { destruct fuel as [|k]; cbn [beat_loop] in L; rewrite B in L; (replace (Qltb 0 stop) with true in L by (symmetry; apply Qltb_lt; auto)); [discriminate|].
    destruct (beat_loop k stop (next_beat st)) as [w|]; [|discriminate]. injection L as <-. eauto. }
  destruct HL as [r ->]. destruct (downbeats_of (0%Q :: r) (sort_sigs sigs) 0) as [d|x] eqn:D; cbn [bind] in H; [|discriminate]. injection H as <-.
  unfold downbeats_of in D. cbv zeta in D.
  assert (Z0 : index_close (0%Q :: r) 0 0 = 0%nat) by reflexivity.
  assert (Z1 : forall s, (ts_time s == 0)%Q -> index_close (0%Q :: r) (ts_time s) 0 = 0%nat).
  { intros s S0. unfold index_close. cbn [find_close]. replace (np_isclose 0 (ts_time s)) with true; [reflexivity|]. symmetry. unfold np_isclose. apply Qle_bool_iff.
    assert (A1 : (Qabsb (0 - ts_time s) == 0)%Q) by (destruct (L_Beats.Qabsb_cases (0 - ts_time s)) as [[_ ->]|[_ ->]]; lra).
    assert (A2 : (Qabsb (ts_time s) == 0)%Q) by (destruct (L_Beats.Qabsb_cases (ts_time s)) as [[_ ->]|[_ ->]]; lra). rewrite A1, A2. unfold Qle; cbn; lia. }
  assert (HD : exists w r', (match sort_sigs sigs with [] => down_spans (0%Q :: r) 0 (mkTS 4 4 0) [] | s :: r0 => if Qltb 0 (ts_time s) then down_spans (0%Q :: r) 0 (mkTS 4 4 0) (s :: r0) else down_spans (0%Q :: r) 0 s r0 end) = Ok w /\ w = 0%Q :: r').
  { destruct (sort_sigs sigs) as [|s ss] eqn:SS.
    - destruct (down_spans (0%Q :: r) 0 (mkTS 4 4 0) []) as [w|x] eqn:W; cbn [bind] in D; [|discriminate]. destruct (spans_head _ _ _ (mkTS 4 4 0) _ Z0 W) as [r' ->]. eauto.
    - destruct (Qltb 0 (ts_time s)) eqn:Q0.
      + destruct (down_spans (0%Q :: r) 0 (mkTS 4 4 0) (s :: ss)) as [w|x] eqn:W; cbn [bind] in D; [|discriminate]. destruct (spans_head _ _ _ (mkTS 4 4 0) _ Z0 W) as [r' ->]. eauto.
      + apply Qltb_ge in Q0. assert (In s sigs). { eapply Permutation_in; [apply Permutation_sym, py_sort_perm|]. unfold sort_sigs in SS. rewrite SS. left; auto. }
        specialize (NN s H). assert (S0 : (ts_time s == 0)%Q) by lra. destruct (down_spans (0%Q :: r) 0 s ss) as [w|x] eqn:W; cbn [bind] in D; [|discriminate]. destruct (spans_head _ _ _ _ _ (Z1 s S0) W) as [r' ->]. eauto. }
  destruct HD as (w & r' & W & ->). rewrite W in D. cbn [bind filter] in D. apply Ok_inj in D. change (Qle_bool 0 0) with true in D. cbv iota in D. subst d. eauto.
Qed.

(** What the fit does to the signatures. *)
Lemma fit_meta : forall fuel raw a b sg1, convert_fit fuel raw a (Some b) = Ok (Some sg1) -> In (mkSI "" 0 false [] [] []) (sg_insts raw) -> exists tempi p1 tempi0 downs,
  get_tempo_changes (sg_pm raw) = (Ok tempi, p1) /\ let e := piece_end tempi (tsigs (sg_meta raw)) (other_times raw) in (0 < e)%Q /\
  get_downbeats fuel tempi0 (tsigs (sg_meta raw)) (other_times raw) 0 = Ok (Some downs) /\
  exists lo hi, (0 <= lo)%Q /\ (lo < hi)%Q /\ (hi <= e)%Q /\ (lo == Qmaxb 0 (match a with Some v => v | None => 0%Q end))%Q /\ (hi == Qminb b e)%Q /\
  sg_insts sg1 = map (refit [(0, lo); (e, hi)]%Q) (sg_insts raw) /\
  md_times (sg_meta sg1) = map (fun s => (ts_num s, ts_den s, ts_time s)) (adjust_sigs [(0, lo); (e, hi)]%Q downs (tsigs (sg_meta raw))) /\
  md_keys (sg_meta sg1) = adjust_list snd (fun k t => (fst k, t)) [(0, lo); (e, hi)]%Q (md_keys (sg_meta raw)) /\
  md_lyrics (sg_meta sg1) = adjust_list snd (fun k t => (fst k, t)) [(0, lo); (e, hi)]%Q (md_lyrics (sg_meta raw)).
Proof.
  intros fuel raw a b sg1 H EMP. assert (K : bind (song_end raw) (fun x => let (e, sg1) := x in
      let a := match a with Some v => v | None => 0%Q end in
      adjust_song fuel sg1 [0%Q; e] [clip 0 e a; clip 0 e b]) = Ok (Some sg1)) by (destruct a; exact H). clear H.
  unfold song_end in K. destruct (get_tempo_changes (sg_pm raw)) as [[tempi|e] p1] eqn:G; [|discriminate]. cbn [bind] in K. cbv zeta in K.
  assert (ENN : (0 <= piece_end tempi (tsigs (sg_meta raw)) (other_times raw))%Q).
  { apply end_ge. apply in_app_iff. left. unfold other_times. apply in_app_iff. left. change 0%Q with (inst_end (mkSI "" 0 false [] [] [])). apply in_map. exact EMP. }
  set (E := piece_end tempi (tsigs (sg_meta raw)) (other_times raw)) in *. unfold adjust_song in K. cbn [sg_pm sg_meta sg_insts] in K.
  set (a0 := match a with Some v => v | None => 0%Q end) in *.
  destruct (get_tempo_changes p1) as [[tempi0|e] p2] eqn:G2; [|discriminate]. destruct (get_downbeats _ _ _ _ _) as [[downs|]|e] eqn:GD; cbn [bind] in K; try discriminate.
  destruct (time_map [0%Q; E] _) as [m|e] eqn:TM; cbn [bind] in K; [|discriminate]. destruct (time_to_tick p2 (last_x m)) as [k|e]; cbn [bind] in K; [|discriminate].
  destruct (update_table _ k) as [tab|e]; cbn [bind] in K; [|discriminate]. cbv zeta in K. set (p3 := mkPM _ _ tab) in K.
  destruct (mapM _ (map fst m)) as [u|e]; cbn [bind] in K; [|discriminate]. destruct (get_tempo_changes p3) as [[tempi3|e] p4] eqn:G3; [|discriminate].
  assert (NM : m <> []). { intros ->. unfold adjust_times in K. rewrite TM in K. discriminate. }
  set (snap := fun x => match snap_to p3 x with Ok v => v | Err _ => 0%Q end) in K.
  rewrite (adjust_ok _ _ _ _ _ _ _ _ _ _ _ _ m TM NM) in K. destruct (new_scales _ _) as [s|e] eqn:NS; [|discriminate]. cbv zeta in K. cbv beta iota in K.
  match type of K with context [update_table ?x ?y] => destruct (update_table x y) as [tab'|e] eqn:UT end; cbn [bind] in K; [|discriminate]. assert (X := f_equal (fun r => match r with Ok (Some v) => v | _ => sg1 end) K). cbv beta iota in X. subst sg1. clear K.
  assert (LN : ~ (List.length (moving (map (fun c => (snap (fst c), snd c)) m)) < 2)%nat).
  { destruct (new_tempi (map (fun c => (snap (fst c), snd c)) m) tempi3) as [|c r] eqn:NT; [discriminate|]. assert (TN : tempi3 <> []). { intros ->. unfold new_tempi in NT. destruct (progress _) as [|[? ?] ?] in NT; discriminate. }
    intro X. apply (new_tempi_nil _ tempi3 TN) in X. congruence. }
  assert (EP : (0 < E)%Q).
  { destruct (Qlt_le_dec 0 E) as [|LE]; auto. exfalso. assert (E0 : (0 == E)%Q) by lra. apply LN. clear - TM E0. unfold time_map, unique in TM. cbn [with_new] in TM. unfold py_sort in TM. cbn [fold_right insert_stable fst] in TM.
    replace (Qltb E 0) with false in TM by (symmetry; apply Qltb_ge; lra). cbn [drop_dups fst] in TM. replace (Qeq_bool 0 E) with true in TM by (symmetry; apply Qeq_bool_iff; auto).
    cbn [all_some bind map snd nondecreasing fst combine accumulate running_max] in TM. apply Ok_inj in TM. subst m. cbn. lia. }
  exists tempi, p1, tempi0, downs. split; auto. cbv zeta. fold E. split; auto. split; auto.
  destruct (two_points E (clip 0 E a0) (clip 0 E b) EP) as (y' & T1 & T2 & T3 & T4). rewrite T1 in TM. apply Ok_inj in TM. subst m.
  destruct (clip_range E a0 ltac:(lra)) as (A1 & A2 & A3 & _). destruct (clip_range E b ltac:(lra)) as (B1 & B2 & _ & B3).
  assert (LT : (clip 0 E a0 < y')%Q).
  { destruct (Qlt_le_dec (clip 0 E a0) y') as [|L]; auto. exfalso. assert (EQ : (clip 0 E a0 == y')%Q) by lra.
    apply LN. cbn [map moving combine filter fst snd]. replace (Qeq_bool (clip 0 E a0) y') with true by (symmetry; apply Qeq_bool_iff; auto). cbn. lia. }
  assert (YB : y' = clip 0 E b) by (destruct (Qlt_le_dec (clip 0 E b) (clip 0 E a0)) as [X|X]; [specialize (T4 X); subst; lra|auto]).
  exists (clip 0 E a0), y'. subst y'. split; auto. split; auto. split; auto. split; [apply A3; lra|]. split; [apply B3; lra|].
  unfold of_piece. cbn [sg_insts sg_meta md_times md_keys md_lyrics p_notes p_bends p_ccs p_keys p_lyrics M_Adjust.p_sigs moved to_piece]. split; [apply put_events_ok|]. split; [reflexivity|].
  split; unfold adjust_events;
  [rewrite (adjust_list_map _ _ (fun k : Z * Q => mkAE (snd k) (fst k)) snd (fun k t => (fst k, t))) by reflexivity|rewrite (adjust_list_map _ _ (fun k : string * Q => mkAE (snd k) (fst k)) snd (fun k t => (fst k, t))) by reflexivity];
  rewrite map_map; rewrite (map_ext _ (fun x => x)); try apply map_id; intros [x y]; reflexivity.
Qed.
