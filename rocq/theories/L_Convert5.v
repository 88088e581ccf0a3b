(** to_pretty_midi of an object with one tempo: the tempo of the result. *)
From Coq Require Import Lqa Lia Sorted Permutation.
From Verif Require Import PyBase L_Base M_Beats L_Beats5 M_Adjust S_Adjust L_Adjust L_Adjust2 L_Adjust3 L_Adjust4 M_SortedDict M_Note L_Note M_Events M_Seq S_Seq L_Seq M_Seqs M_Ticks S_Ticks L_Ticks M_Load M_Write M_Meta M_Song M_Reader S_Reader L_Reader L_Reader2 L_Reader3 M_Pipe M_Tempi S_Tempi L_Tempi L_Tempi2 M_Convert S_Convert L_Convert L_Convert2 L_Convert3 L_Convert4.
Open Scope Z_scope.

(** The clock of an object with two entries at tick 0. *)
Definition twice (r : Z) (c0 c1 : Q) : pm := mkPM r [(0, c0); (0, c1)] [0%Q].
Lemma twice_vmap : forall c0 c1, (0 < c0)%Q -> (0 < c1)%Q -> vmap [(0, c0); (0, c1)].
Proof.
  intros c0 c1 H0 H1. split; [exists c0, [(0, c1)]; reflexivity|]. split.
  - constructor; [constructor; constructor|]. constructor; [cbn; lia|constructor].
  - intros e [<-|[<-|[]]]; auto.
Qed.
Lemma twice_T : forall c0 c1 k, 0 <= k -> (T [(0%Z, c0); (0%Z, c1)] k == inject_Z k * c1)%Q.
Proof.
  intros c0 c1 k K. rewrite (T_ext _ (fun _ => c1)); [apply sum_const; auto|]. intros j J. unfold tf, at_tick. cbn [fold_left fst snd].
  destruct (Z.leb_spec 0 j); [reflexivity|lia].
Qed.
Lemma twice_pinv : forall r c0 c1, pinv [(0, c0); (0, c1)] (twice r c0 c1).
Proof.
  intros r c0 c1. split; [reflexivity|]. split; [reflexivity|]. cbn [twice p_times List.length]. intros k K. assert (k = 0) by lia. subst k. exists 0%Q. split; reflexivity.
Qed.
Lemma twice_changes : forall r c0 c1 tab v, (0 < c0)%Q -> (0 < c1)%Q -> 0 < r -> py_nth tab 0 = Ok v -> (0 < List.length tab)%nat ->
  let p := mkPM r [(0, c0); (0, c1)] tab in get_tempo_changes p = (Ok [(v, 60 / (c0 * inject_Z r)); (v, 60 / (c1 * inject_Z r))]%Q, p).
Proof.
  intros r c0 c1 tab v H0 H1 Hr E L p. unfold get_tempo_changes. cbn [p M_Ticks.p_scales tempo_changes_loop].
  assert (TT : tick_to_time p 0 = (Ok v, p)).
  { unfold tick_to_time. change (MAX_TICK <=? 0) with false. cbv zeta. cbn [p p_times]. replace (Z.of_nat (List.length tab) <=? 0) with false by (symmetry; apply Z.leb_gt; lia). cbv iota. change (p_times p) with tab. rewrite E. reflexivity. }
  assert (R0 : (0 < inject_Z r)%Q) by (apply inject_pos'; auto).
  assert (NZ : forall c, (0 < c)%Q -> Qeq_bool (c * inject_Z r) 0 = false).
  { intros c C. destruct (Qeq_bool _ 0) eqn:Q0; auto. apply Qeq_bool_iff in Q0. assert (0 < c * inject_Z r)%Q by (apply Qmult_lt_0_compat; auto). lra. }
  fold p. rewrite TT. cbn [p p_res]. rewrite (NZ c0 H0). fold p. rewrite TT. cbn [p p_res]. rewrite (NZ c1 H1). reflexivity.
Qed.
Lemma mapM2 : forall A B (f : A -> res B) a b u, mapM f [a; b] = Ok u -> exists x y, f a = Ok x /\ f b = Ok y.
Proof. intros A B f a b u H. cbn in H. destruct (f a) as [x|]; cbn in H; [|discriminate]. destruct (f b) as [y|]; cbn in H; [|discriminate]. eauto. Qed.

Lemma fit_one : forall fuel raw a b sg1 r c0 c1, 0 < r -> (0 < c0)%Q -> (0 < c1)%Q -> sg_pm raw = twice r c0 c1 ->
  convert_fit fuel raw a (Some b) = Ok (Some sg1) -> (exists i n, In i (sg_insts raw) /\ In n (si_notes i) /\ (0 < sn_end n)%Q) ->
  let e := piece_end [(0, 60 / (c0 * inject_Z r)); (0, 60 / (c1 * inject_Z r))]%Q (tsigs (sg_meta raw)) (other_times raw) in (0 < e)%Q /\
  exists lo hi k downs, (0 <= lo)%Q /\ (lo < hi)%Q /\ (hi <= e)%Q /\ (lo == Qmaxb 0 (match a with Some v => v | None => 0%Q end))%Q /\ (hi == Qminb b e)%Q /\
  0 < k /\ (forall j, 0 <= j -> (Qabsb (e - inject_Z k * c1) <= Qabsb (e - inject_Z j * c1))%Q) /\
  let m := [(0, lo); (e, hi)]%Q in
  sg_insts sg1 = map (refit m) (sg_insts raw) /\
  md_keys (sg_meta sg1) = adjust_list snd (fun x t => (fst x, t)) m (md_keys (sg_meta raw)) /\
  md_times (sg_meta sg1) = map (fun s => (ts_num s, ts_den s, ts_time s)) (adjust_sigs m downs (tsigs (sg_meta raw))) /\
  md_lyrics (sg_meta sg1) = adjust_list snd (fun x t => (fst x, t)) m (md_lyrics (sg_meta raw)) /\
  ((lo == 0)%Q -> exists q p0, (q == 60 / (c1 * inject_Z r) * (inject_Z k * c1 / (hi - lo)))%Q /\ pm_new r q = Ok p0 /\ sg_pm sg1 = pm_run p0 [PmTime 1]).
Proof.
  intros fuel raw a b sg1 r c0 c1 Hr H0 H1 EP H NN e.
  assert (K : bind (song_end raw) (fun x => let (e, sg1) := x in
      let a := match a with Some v => v | None => 0%Q end in
      adjust_song fuel sg1 [0%Q; e] [clip 0 e a; clip 0 e b]) = Ok (Some sg1)) by (destruct a; exact H). clear H.
  pose proof (twice_changes r c0 c1 [0%Q] 0%Q H0 H1 Hr eq_refl ltac:(cbn; lia)) as TC. cbv zeta in TC. change (mkPM r [(0, c0); (0, c1)] [0%Q]) with (twice r c0 c1) in TC.
  unfold song_end in K. rewrite EP, TC in K. cbn [bind] in K. cbv zeta in K. fold e in K.
  assert (E : (0 < e)%Q). { destruct NN as (i & n & I & N & P). pose proof (end_note [(0, 60 / (c0 * inject_Z r)); (0, 60 / (c1 * inject_Z r))]%Q raw i n I N). fold e in H. lra. }
  split; auto. set (a0 := match a with Some v => v | None => 0%Q end) in *.
  unfold adjust_song in K. cbn [sg_pm sg_meta sg_insts] in K. rewrite TC in K.
  destruct (get_downbeats _ _ _ _ _) as [[downs|]|x]; cbn [bind] in K; try discriminate.
  destruct (two_points e (clip 0 e a0) (clip 0 e b) E) as (y' & T1 & T2 & T3 & T4). rewrite T1 in K. cbn [bind] in K.
  destruct (time_to_tick (twice r c0 c1) _) as [kk|x] eqn:TK; cbn [bind] in K; [|discriminate]. cbn [twice M_Ticks.p_scales p_res] in K.
  pose proof (twice_vmap c0 c1 H0 H1) as V.
  assert (KK : 0 <= kk). { destruct (time_to_tick_ok _ _ (last_x [(0%Q, clip 0 e a0); (e, y')]) V (twice_pinv r c0 c1)) as (k & K1 & K2 & _). rewrite K1 in TK. apply Ok_inj in TK. lia. }
  destruct (update_table_ok _ kk V KK) as (tab & UT & LT & GT). rewrite UT in K. cbn [bind] in K. cbv zeta in K. set (p3 := mkPM r _ tab) in K.
  change (last_tick [(0, c0); (0, c1)]) with 0 in *. rewrite Z.max_l in LT, GT by auto.
  assert (PI : pinv [(0, c0); (0, c1)] p3). { split; [reflexivity|]. cbn [p3 p_times]. split; [change (last_tick [(0, c0); (0, c1)]) with 0; lia|]. intros k Hk. apply GT. lia. }
  destruct (mapM _ _) as [u|x] eqn:MM; cbn [bind] in K; [|discriminate]. cbn [map fst] in MM. destruct (mapM2 _ _ _ _ _ _ MM) as (v0 & x1 & S0 & S1).
  destruct (GT 0 ltac:(lia)) as (v & NV & VV). assert (PV : py_nth tab 0 = Ok v) by (apply py_nth_ok; auto; lia).
  pose proof (twice_changes r c0 c1 tab v H0 H1 Hr PV ltac:(lia)) as TC3. cbv zeta in TC3. fold p3 in TC3. rewrite TC3 in K.
  assert (NM : [(0%Q, clip 0 e a0); (e, y')] <> []) by discriminate.
  rewrite (adjust_ok _ _ _ _ _ _ _ _ _ _ _ _ _ T1 NM) in K. cbn [map fst snd] in K. rewrite S0, S1 in K.
  assert (V0 : (v0 == 0)%Q).
  { unfold snap_to in S0. destruct (time_to_tick_ok _ _ 0%Q V PI) as (j & J1 & J2 & J3). rewrite J1 in S0. cbn [bind] in S0. specialize (J3 0 ltac:(lia)). rewrite (Qabsb_comp (0 - T _ 0) 0) in J3 by (rewrite (twice_T c0 c1 0) by lia; change (inject_Z 0) with 0%Q; lra).
    assert (J4 : (Qabsb (0 - T [(0%Z, c0); (0%Z, c1)] j) == inject_Z j * c1)%Q).
    { rewrite (Qabsb_comp _ (- (inject_Z j * c1))) by (rewrite twice_T by auto; lra). destruct (Qabsb_spec (- (inject_Z j * c1))) as [[A ->]|[A ->]]; [|lra]. assert (0 <= inject_Z j * c1)%Q by (apply Qmult_le_0_compat; [change 0%Q with (inject_Z 0); rewrite <- Zle_Qle; auto|lra]). lra. }
    rewrite J4 in J3. destruct (Qabsb_spec 0) as [[A EA]|[A EA]]; rewrite EA in J3; [|lra]. assert (j = 0).
    { destruct (Z.eq_dec j 0); auto. assert (0 < inject_Z j * c1)%Q by (apply Qmult_lt_0_compat; auto; apply inject_pos'; lia). lra. }
    subst j. cbn [p3 p_times] in S0. assert (v0 = v) by (rewrite PV in S0; apply Ok_inj in S0; auto). subst v0. rewrite VV. rewrite twice_T by lia. change (inject_Z 0) with 0%Q. lra. }
  unfold snap_to in S1. destruct (time_to_tick_ok _ _ e V PI) as (k & K1 & K2 & K3). rewrite K1 in S1. cbn [bind p3 p_times] in S1.
  assert (KL : k <= kk). { destruct (Z_le_gt_dec k kk); auto. exfalso. unfold py_nth in S1. replace (k <? 0) with false in S1 by (symmetry; apply Z.ltb_ge; lia). rewrite (proj2 (nth_error_None tab (Z.to_nat k))) in S1 by lia. destruct (k <? 0); discriminate. }
  assert (X1 : (x1 == inject_Z k * c1)%Q). { destruct (GT k ltac:(lia)) as (w & W1 & W2). assert (PW : py_nth tab k = Ok w) by (apply py_nth_ok; auto; lia). rewrite PW in S1. apply Ok_inj in S1. subst w. rewrite W2. apply twice_T; auto. }
  destruct (new_scales (p_res p3) _) as [s|x] eqn:NS; [|discriminate]. cbv zeta in K. cbv beta iota in K.
  cbn [M_Adjust.p_scales] in K. match type of K with context [update_table ?x ?y] => destruct (update_table x y) as [tab'|x'] eqn:UT' end; cbn [bind] in K; [|discriminate].
  match type of K with Ok (Some ?v) = _ => assert (X : sg1 = v) by congruence end. subst sg1. clear K.
  destruct (clip_range e a0 ltac:(lra)) as (A1 & A2 & A3 & _). destruct (clip_range e b ltac:(lra)) as (B1 & B2 & _ & B3).
  unfold new_tempi in NS. cbn [progress progress_from] in NS.
  destruct (negb (Qeq_bool (clip 0 e a0) y') && negb (Qeq_bool v0 x1)) eqn:PR; [|destruct (skip_to _ _ _) in NS; discriminate].
  apply andb_true_iff in PR as [PR1 PR2]. apply negb_true_iff in PR1. apply negb_true_iff in PR2. apply Qeq_bool_neq in PR1. apply Qeq_bool_neq in PR2.
  assert (LT' : (clip 0 e a0 < y')%Q) by lra.
  assert (YB : y' = clip 0 e b) by (destruct (Qlt_le_dec (clip 0 e b) (clip 0 e a0)) as [X|X]; [specialize (T4 X); subst; lra|auto]).
  assert (K0 : 0 < k). { destruct (Z.eq_dec k 0); [|lia]. subst k. change (inject_Z 0) with 0%Q in X1. lra. }
  assert (X1P : (0 < x1)%Q) by (rewrite X1; apply Qmult_lt_0_compat; auto; apply inject_pos'; auto).
  exists (clip 0 e a0), y', k, downs. subst y'. split; auto. split; auto. split; auto. split; [apply A3; lra|]. split; [apply B3; lra|]. split; auto. split.
  { intros j J. specialize (K3 j J). rewrite (Qabsb_comp _ (e - inject_Z k * c1)) in K3 by (rewrite twice_T by auto; lra). rewrite (Qabsb_comp (e - T _ j) (e - inject_Z j * c1)) in K3 by (rewrite twice_T by auto; lra). auto. }
  cbv zeta. unfold of_piece, moved; cbn [sg_insts sg_meta sg_pm md_keys md_times md_lyrics p_notes p_bends p_ccs p_keys p_lyrics M_Adjust.p_sigs M_Adjust.p_scales to_piece]. split; [apply put_events_ok|]. split; [|split; [reflexivity|split]].
  { cbn [sg_meta md_keys]. unfold adjust_events. rewrite (adjust_list_map _ _ (fun k : Z * Q => mkAE (snd k) (fst k)) snd (fun x t => (fst x, t))) by reflexivity. rewrite map_map. rewrite (map_ext _ (fun x => x)); [apply map_id|]. intros [? ?]; reflexivity. }
  { cbn [sg_meta md_lyrics]. unfold adjust_events. rewrite (adjust_list_map _ _ (fun k : string * Q => mkAE (snd k) (fst k)) snd (fun x t => (fst x, t))) by reflexivity. rewrite map_map. rewrite (map_ext _ (fun x => x)); [apply map_id|]. intros [? ?]; reflexivity. }
  intros LO. cbn [skip_to] in NS. replace (Qle_bool v v0) with true in NS by (symmetry; apply Qle_bool_iff; rewrite VV, V0; rewrite twice_T by lia; change (inject_Z 0) with 0%Q; lra).
  cbn [skip_to zones inside app map fst snd interp] in NS. replace (Qltb v0 v0) with false in NS by (symmetry; apply Qltb_ge; lra).
  cbn [interp_from] in NS. replace (Qltb v0 x1) with true in NS by (symmetry; apply Qltb_lt; lra). unfold new_scales in NS.
  set (q := (60 / (c1 * inject_Z r) * ((x1 - v0) / (clip 0 e b - clip 0 e a0)))%Q) in *.
  match type of NS with context [Qeq_bool ?t 0] => replace (Qeq_bool t 0) with true in NS end; [|symmetry; apply Qeq_bool_iff; rewrite LO; field; lra].
  cbn [scales_from] in NS. apply Ok_inj in NS. subst s. cbn [p3 p_res] in *. cbn [last fst] in UT'. change (0 + 1) with 1 in UT'.
  assert (R0 : (0 < inject_Z r)%Q) by (apply inject_pos'; auto).
  assert (QP : (0 < q)%Q). { unfold q. apply Qmult_lt_0_compat; [apply Qlt_shift_div_l; [apply Qmult_lt_0_compat; auto|lra]|]. apply Qlt_shift_div_l; lra. }
  exists q, (mkPM r [(0, (60 / (q * inject_Z r))%Q)] [0%Q]). split.
  { unfold q. rewrite V0, X1. field. split; [lra|]. split; lra. }
  split.
  { unfold pm_new, scale_of_bpm. destruct (Qeq_bool (q * inject_Z r) 0) eqn:Q0; [apply Qeq_bool_iff in Q0; assert (0 < q * inject_Z r)%Q by (apply Qmult_lt_0_compat; auto); lra|reflexivity]. }
  unfold pm_run. cbn [fold_left pm_step]. unfold tick_to_time. change (MAX_TICK <=? 1) with false. cbv zeta. cbn [p_times List.length M_Ticks.p_scales p_res]. change (Z.of_nat 1 <=? 1) with true. cbv iota. rewrite UT'. reflexivity.
Qed.
