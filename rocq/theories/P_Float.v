(** C158-C161: tempo and ticks in double precision. *)
From Coq Require Import Lia Lqa Sorted.
From Verif Require Import PyBase L_Base M_Note M_Ticks S_Ticks L_Ticks M_Float S_Float L_Float L_Float2 L_Float3 L_Float4 L_Float5.
Open Scope Z_scope.

(** C158: saving a piece and loading it again keeps the tempo at every tick, or lowers it by one
    microsecond per quarter note; after n rounds it has lost at most n. *)
Theorem C158_saved_tempo : forall n resolution evs, 0 < resolution -> tempo_events evs ->
  (forall e, In e evs -> Z.of_nat n < snd e <= 2 ^ 48) -> Z.of_nat n < 500000 ->
  exists evs', resave_n n resolution evs = Ok evs' /\ tempo_events evs' /\
    forall j, 0 <= j -> tempo_at evs j - Z.of_nat n <= tempo_at evs' j <= tempo_at evs j.
Proof. intros n r evs R TE B N. apply resave_n_ok; auto. Qed.
Print Assumptions C158_saved_tempo.
(** C158: the loss is real: 130 bpm at 480 ticks a quarter note changes on the first save, and four
    saves in a row can lose four. *)
Theorem C158_drift : resave 480 [(0, 461538)] = Ok [(0, 461537)] /\ resave_n 4 480 [(0, 400147)] = Ok [(0, 400143)].
Proof. split; vm_compute; reflexivity. Qed.
Print Assumptions C158_drift.
(** C158: what is written for one tempo t is t or t - 1. *)
Theorem C158_kept : forall resolution t s, 0 < resolution -> 0 < t <= 2 ^ 48 -> scale_f t resolution = Ok s ->
  saved_tempo resolution s = t \/ saved_tempo resolution s = t - 1.
Proof. intros r t s R T0 E. pose proof (saved_le t r s T0 R E). lia. Qed.
Print Assumptions C158_kept.
Example C158_holds : tempo_events [(0, 461538); (480, 500000); (960, 400147)] /\
  resave_n 2 480 [(0, 461538); (480, 500000); (960, 400147)] = Ok [(0, 461537); (480, 500000); (960, 400145)].
Proof.
  split; [|vm_compute; reflexivity]. split; [repeat constructor; cbn; lia|]. intros e He. cbn in He. intuition subst; cbn; lia.
Qed.

(** C159: the seconds of a tick, in doubles, do not depend on the calls made before, never decrease, and
    are as close to the exact value as one rounding per tempo event (plus five). *)
Theorem C159_tick_seconds : forall resolution evs last, 0 < resolution -> tempo_events evs -> 0 <= last < MAX_TICK ->
  (forall e, In e evs -> fst e <= last) -> Z.of_nat (List.length evs) <= 2 ^ 50 ->
  exists p time, pm_load_f resolution evs last = Ok p /\
    (forall ks k, 0 <= k < MAX_TICK -> fst (tick_to_time_f (pm_run_f p ks) k) = Ok (time k)) /\
    (forall ks k, MAX_TICK <= k -> fst (tick_to_time_f (pm_run_f p ks) k) = Err IndexError) /\
    (forall j k, 0 <= j <= k -> (time j <= time k)%Q) /\ time 0 = 0%Q /\
    (forall k, 0 <= k ->
       (Qabsb (time k - exact_time resolution evs k)
        <= exact_time resolution evs k * (inject_Z (5 + Z.of_nat (List.length evs)) / inject_Z (2 ^ 51)))%Q).
Proof.
  intros r evs last R TE L B LE. destruct (pm_load_f_ok r evs last R TE L B) as [p [m [b [E [EM [I [F LN]]]]]]].
  pose proof (linv_vmap _ _ _ _ R TE I) as V. exists p, (ft 0 m). split; auto. split; [|split; [|split; [|split]]].
  - intros ks k K. destruct (run_f_ok m ks p V F) as [F' _]. destruct (tick_f_ok m _ k V F' K) as [p' [E' _]]. rewrite E'. reflexivity.
  - intros ks k K. unfold tick_to_time_f. destruct (Z.leb_spec MAX_TICK k); [reflexivity|lia].
  - intros; apply vmap_ft_mono; auto.
  - destruct V as [[s [l ->]] [MS P]]. apply ft_start; [split; [lra|reflexivity]|].
    apply StronglySorted_inv in MS as [_ MF]. rewrite Forall_forall in MF. intros x Hx. apply (MF x Hx).
  - intros k K. pose proof (time_near r evs m b k R TE EM I K) as N. apply near_abs in N; [|lia].
    rewrite Nat2Z.inj_add in N. exact N.
Qed.
Print Assumptions C159_tick_seconds.
Example C159_holds : exists p, pm_load_f 220 [(0, 461538); (2, 333333)] 4 = Ok p /\
  fst (tick_to_time_f p 4) = Ok (520695380277471 # 72057594037927936) /\ (exact_time 220 [(0, 461538); (2, 333333)]%Z 4 == 72261 # 10000000)%Q.
Proof. eexists. split; [vm_compute; reflexivity|]. split; vm_compute; reflexivity. Qed.

(** C159: a file longer than the limit of ticks is refused. *)
Theorem C159_too_long : forall resolution evs last, 0 < resolution -> tempo_events evs -> MAX_TICK <= last -> pm_load_f resolution evs last = Err ValueError.
Proof.
  intros r evs last R TE L. unfold pm_load_f. destruct (load_tempo_f_ok r evs R TE) as (m & b & -> & _). cbn [bind]. destruct (Z.ltb_spec MAX_TICK (last + 1)); [reflexivity|lia].
Qed.
Print Assumptions C159_too_long.

(** C160: with the tempi of MIDI files, different ticks have different seconds in doubles, and converting
    the seconds of a tick back gives the same tick, whatever was converted in between: a loaded note is
    written at the ticks it was read from. *)
Theorem C160_ticks_survive : forall resolution evs last p ks k ks', 0 < resolution -> tempo_events evs -> usual_tempi evs ->
  Z.of_nat (List.length evs) <= 2 ^ 40 -> 0 <= last < MAX_TICK -> (forall e, In e evs -> fst e <= last) ->
  pm_load_f resolution evs last = Ok p -> 0 <= k < MAX_TICK ->
  exists t p1, tick_to_time_f (pm_run_f p ks) k = (Ok t, p1) /\ time_to_tick_f (pm_run_f p1 ks') t = Ok k.
Proof.
  intros r evs last p ks k ks' R TE UT LE L B E K. destruct (pm_load_f_ok r evs last R TE L B) as [p0 [m [b [E0 [EM [I [F LN]]]]]]].
  rewrite E in E0. injection E0 as <-. pose proof (linv_vmap _ _ _ _ R TE I) as V.
  destruct (run_f_ok m ks p V F) as [F1 L1]. destruct (tick_f_ok m _ k V F1 K) as [p1 [E1 [F2 L2]]].
  exists (ft 0 m k), p1. split; auto. destruct (run_f_ok m ks' p1 V F2) as [F3 L3].
  apply back_f; auto; [|lia]. intros j J0 J1. eapply time_strict; eauto. unfold MAX_TICK in *. lia.
Qed.
Print Assumptions C160_ticks_survive.
(** C160: different ticks, different seconds. *)
Theorem C160_distinct : forall resolution evs last p ks j k tj tk, 0 < resolution -> tempo_events evs -> usual_tempi evs ->
  Z.of_nat (List.length evs) <= 2 ^ 40 -> 0 <= last < MAX_TICK -> (forall e, In e evs -> fst e <= last) ->
  pm_load_f resolution evs last = Ok p -> 0 <= j < k -> k < MAX_TICK ->
  fst (tick_to_time_f (pm_run_f p ks) j) = Ok tj -> fst (tick_to_time_f (pm_run_f p ks) k) = Ok tk -> (tj < tk)%Q.
Proof.
  intros r evs last p ks j k tj tk R TE UT LE L B E J K Ej Ek. destruct (pm_load_f_ok r evs last R TE L B) as [p0 [m [b [E0 [EM [I [F LN]]]]]]].
  rewrite E in E0. injection E0 as <-. pose proof (linv_vmap _ _ _ _ R TE I) as V.
  destruct (run_f_ok m ks p V F) as [F1 L1]. destruct (tick_f_ok m _ k V F1 ltac:(lia)) as [p1 [E1 _]]. destruct (tick_f_ok m _ j V F1 ltac:(lia)) as [p2 [E2 _]].
  rewrite E1 in Ek. rewrite E2 in Ej. cbn [fst] in *. apply L_Note.Ok_inj in Ej. apply L_Note.Ok_inj in Ek. subst.
  apply increasing_lt with MAX_TICK; auto. intros i I0 I1. eapply time_strict; eauto. unfold MAX_TICK in *. lia.
Qed.
Print Assumptions C160_distinct.
Example C160_holds : usual_tempi [(0, 461538); (3, 333333)] /\
  bind (pm_load_f 220 [(0, 461538); (3, 333333)] 5) (fun p =>
    Ok (map (fun k => bind (fst (tick_to_time_f p k)) (time_to_tick_f p)) [0; 1; 2; 3; 4; 5])) = Ok [Ok 0; Ok 1; Ok 2; Ok 3; Ok 4; Ok 5].
Proof. split; [intros e [<-|[<-|[]]]; cbn [snd]; lia|]. vm_compute; reflexivity. Qed.

(** C161: in doubles, every time has a tick, later times never get earlier ticks (a note that starts before
    it ends is not written backwards), and up to the end of the file no other tick is closer by more than
    the rounding error of the comparison (2251799813685248 = 2^51). *)
Theorem C161_any_time : forall resolution evs last p ks, 0 < resolution -> tempo_events evs -> 0 <= last < MAX_TICK ->
  (forall e, In e evs -> fst e <= last) -> pm_load_f resolution evs last = Ok p -> let p' := pm_run_f p ks in
  (forall t, exists k, time_to_tick_f p' t = Ok k /\ 0 <= k) /\
  (forall t1 t2 k1 k2, (t1 <= t2)%Q -> time_to_tick_f p' t1 = Ok k1 -> time_to_tick_f p' t2 = Ok k2 -> k1 <= k2) /\
  (forall t tl k, fst (tick_to_time_f p' last) = Ok tl -> (t <= tl)%Q -> time_to_tick_f p' t = Ok k ->
     0 <= k <= last /\ exists tk, fst (tick_to_time_f p' k) = Ok tk /\
     forall j tj, 0 <= j -> fst (tick_to_time_f p' j) = Ok tj -> (Qabsb (t - tk) <= (1 + (1 # 2251799813685248)) * Qabsb (t - tj))%Q).
Proof.
  intros r evs last p ks R TE L B E p'. destruct (pm_load_f_ok r evs last R TE L B) as [p0 [m [b [E0 [EM [I [F LN]]]]]]].
  rewrite E in E0. injection E0 as <-. pose proof (linv_vmap _ _ _ _ R TE I) as V. destruct (run_f_ok m ks p V F) as [F1 L1]. fold p' in F1, L1.
  assert (N : Z.of_nat (List.length (p_times p')) <= 2 ^ 53) by (unfold MAX_TICK in *; lia).
  assert (T : forall k tk, 0 <= k -> fst (tick_to_time_f p' k) = Ok tk -> tk = ft 0 m k).
  { intros k tk K Ek. destruct (Z_lt_le_dec k MAX_TICK) as [KM|KM].
    - destruct (tick_f_ok m p' k V F1 ltac:(lia)) as [p1 [E1 _]]. rewrite E1 in Ek. cbn [fst] in Ek. apply L_Note.Ok_inj in Ek. auto.
    - unfold tick_to_time_f in Ek. destruct (Z.leb_spec MAX_TICK k); [discriminate|lia]. }
  split; [intros; eapply to_tick_total; eauto|]. split; [intros; eapply to_tick_mono; eauto|].
  intros t tl k EL TL EK. apply T in EL; [|lia]. subst tl.
  destruct (to_tick_nearest m p' t k last V F1 ltac:(lia) TL EK) as [KB H]. split; auto.
  destruct (tick_f_ok m p' k V F1 ltac:(lia)) as [p1 [E1 _]]. exists (ft 0 m k). rewrite E1. split; [reflexivity|].
  intros j tj J EJ. apply T in EJ; auto. subst tj. apply H. auto.
Qed.
Print Assumptions C161_any_time.
Example C161_holds :
  bind (pm_load_f 220 [(0, 461538)] 4) (fun p => Ok (map (time_to_tick_f p) [-1; 1 # 1000; 2 # 1000; 5 # 1000; 1]%Q)) = Ok [Ok 0; Ok 0; Ok 1; Ok 2; Ok 477].
Proof. vm_compute; reflexivity. Qed.
