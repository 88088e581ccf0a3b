(** C219: the tempi a loaded file reports, in double precision. *)
From Coq Require Import QArith Qabs Qround Lia Lqa Sorted.
From Verif Require Import PyBase L_Base M_Note L_Note M_Ticks S_Ticks L_Ticks M_Float S_Float L_Float L_Float2 L_Float3 L_Float4 L_Float5 S_TempoF L_TempoF M_ReportF L_ReportF.
Open Scope Z_scope.

(** C219: in double precision a loaded file reports its tempi in order, the first at time 0, and at every
    tick the last one reported by that time is the tempo in force there, to 5 parts in 2^51.  Shown as a whole
    number it is 60000000/tempo rounded down, or one less when the division is exact. *)
Theorem C219_report : forall resolution evs last, 0 < resolution -> tempo_events evs -> usual_tempi evs ->
  Z.of_nat (List.length evs) <= 2 ^ 40 -> 0 <= last < MAX_TICK -> (forall e, In e evs -> fst e <= last) ->
  exists p out, pm_load_f resolution evs last = Ok p /\
    (forall ks, fst (get_tempo_changes_f (pm_run_f p ks)) = Ok out) /\
    (exists c o, out = c :: o /\ fst c = 0%Q) /\
    StronglySorted (fun a b => (fst a <= fst b)%Q) out /\
    (forall j, 0 <= j < MAX_TICK -> let tempo := at_tick evs j 500000 in
       exists t l1 c l2, fst (tick_to_time_f p j) = Ok t /\ out = l1 ++ c :: l2 /\ (fst c <= t)%Q /\
         (forall x, In x l2 -> (t < fst x)%Q) /\
         parts 5 (snd c) (60000000 / inject_Z tempo) /\
         (shown_qpm (snd c) = 60000000 / tempo \/ (60000000 mod tempo = 0 /\ shown_qpm (snd c) = 60000000 / tempo - 1))).
Proof.
  intros r evs last R TE UT LE L B. destruct (pm_load_f_ok r evs last R TE L B) as [p [m [b [E0 [EM [I [F LN]]]]]]].
  pose proof (linv_vmap _ _ _ _ R TE I) as V. pose proof (load_res _ _ _ _ E0) as PR.
  assert (MB : forall x, In x m -> 0 <= fst x < MAX_TICK).
  { intros x Hx. pose proof (vmap_nonneg m x V Hx). split; [auto|]. unfold load_tempo_f in EM. destruct (scale_bpm_f 120 r); [|discriminate]. cbn [bind] in EM.
    destruct (loop_ticks _ _ _ _ EM x Hx) as [[H1|[]]|[H1|H1]]; cbn in *; try lia. apply in_map_iff in H1 as [e' [<- H1]]. specialize (B _ H1). lia. }
  exists p, (map (rep r m) m). split; [auto|]. split.
  { intros ks. destruct (run_f_ok m ks p V F) as [F1 _]. unfold get_tempo_changes_f. pose proof F1 as [EQ _]. rewrite EQ.
    destruct (rep_loop m r m (pm_run_f p ks) R V F1) as (p2 & E2); [rewrite run_res; auto| |rewrite E2; reflexivity].
    intros x Hx. split; [auto|]. apply V; auto. }
  split; [|split].
  - destruct V as [[s [m' EE]] _]. rewrite EE. cbn [map]. eexists _, _. split; [reflexivity|]. unfold rep. cbn [fst]. rewrite <- EE.
    rewrite EE. apply ft_start; [split; [lra|reflexivity]|]. intros x Hx. apply MB. rewrite EE. right. auto.
  - assert (G : forall l, (forall x, In x l -> 0 <= fst x) -> msorted l -> StronglySorted (fun a b => (fst a <= fst b)%Q) (map (rep r m) l)).
    { induction l as [|x l IH]; intros N S; [constructor|]. apply StronglySorted_inv in S as [S1 S2]. rewrite Forall_forall in S2. cbn [map]. constructor.
      - apply IH; auto. intros; apply N; right; auto.
      - apply Forall_forall. intros y Hy. apply in_map_iff in Hy as [z [<- Hz]]. cbn [rep fst]. apply vmap_ft_mono; auto. split; [apply N; left; auto|auto]. }
    apply G; [intros x Hx; apply MB; auto|apply V].
  - intros j J tempo. destruct (tick_f_ok m p j V F J) as [p1 [E1 _]]. destruct V as [[s0 [m0 V0]] [V2 V3]] eqn:EV; clear EV.
    destruct (msorted_split m s0 m0 j V0 V2 ltac:(lia)) as [pre [s [sc [post [Es [Hs Hp]]]]]].
    exists (ft 0 m j), (map (rep r m) pre), (rep r m (s, sc)), (map (rep r m) post). rewrite E1. split; [reflexivity|].
    split; [rewrite Es at 2; rewrite map_app; reflexivity|]. assert (Hs0 : 0 <= s) by (apply (MB (s, sc)); rewrite Es; apply in_or_app; right; left; auto).
    assert (VV : vmap m) by (split; [eauto|auto]).
    split; [cbn [rep fst]; apply vmap_ft_mono; auto|]. split.
    { intros y Hy. apply in_map_iff in Hy as [z [<- Hz]]. cbn [rep fst]. assert (In z m) by (rewrite Es; apply in_or_app; right; right; auto).
      apply increasing_lt with MAX_TICK; [|split; [lia|auto]|apply MB; auto].
      intros i I0 I1. eapply time_strict; eauto. unfold MAX_TICK in *. lia. }
    pose proof I as [_ [_ [_ [_ IL]]]]. specialize (IL j ltac:(lia)). rewrite Es, at_tick_seg in IL by auto. fold tempo in IL.
    assert (T0 : 0 < tempo) by (apply at_tick_tempo_pos; auto).
    cbn [rep snd]. rewrite IL.
    pose proof (near_parts 5 _ _ (rep_near r tempo R T0) ltac:(lia)) as NP. change (Z.of_nat 5) with 5 in NP.
    split; [exact NP|]. unfold shown_qpm. apply floor_near; auto.
Qed.
Print Assumptions C219_report.
Example C219_holds : tempo_events [(0, 461538); (3, 333333)] /\ usual_tempi [(0, 461538); (3, 333333)] /\
  bind (pm_load_f 220 [(0, 461538); (3, 333333)] 5) (fun p => bind (fst (get_tempo_changes_f p)) (fun l => Ok (map (fun c => shown_qpm (snd c)) l))) = Ok [130; 180].
Proof.
  split; [split; [repeat constructor; cbn; lia|intros e [<-|[<-|[]]]; cbn [fst snd]; lia]|].
  split; [intros e [<-|[<-|[]]]; cbn [snd]; lia|]. vm_compute; reflexivity.
Qed.
(** 100 quarters per minute at 220 ticks per quarter is shown as 99. *)
Example C219_off : bind (pm_load_f 220 [(0, 600000)] 5) (fun p => bind (fst (get_tempo_changes_f p)) (fun l => Ok (map (fun c => shown_qpm (snd c)) l))) = Ok [99].
Proof. vm_compute; reflexivity. Qed.
