(** C220: what repeated saving and loading does to ticks and seconds, in double precision. *)
From Coq Require Import QArith Qabs Lia Lqa Sorted.
From Verif Require Import PyBase L_Base M_Note M_Ticks S_Ticks L_Ticks M_Float S_Float L_Float L_Float2 L_Float3 L_Float4 L_Float5 L_Resave P_Float.
Open Scope Z_scope.

(** C220: saving a file and loading it again any number n of times: every tick still has one time in
    seconds, converting that time back gives the same tick (so every note is written where it was), and the
    time of tick k lies between that of the original file and n microseconds per quarter note less, up to
    one rounding per tempo event (2251799813685248 = 2^51). *)
Theorem C220_resaved : forall n resolution evs last, 0 < resolution -> tempo_events evs ->
  (forall e, In e evs -> 256 + Z.of_nat n <= snd e < 2 ^ 24) -> 256 + Z.of_nat n <= 500000 ->
  Z.of_nat (List.length evs) <= 2 ^ 39 -> 0 <= last < MAX_TICK -> (forall e, In e evs -> fst e <= last) ->
  exists evs' p, resave_n n resolution evs = Ok evs' /\ pm_load_f resolution evs' last = Ok p /\
    forall ks k, 0 <= k < MAX_TICK -> let x := exact_time resolution evs k in
      let slack := (x * (inject_Z (6 + Z.of_nat (List.length evs)) / 2251799813685248))%Q in
      exists t p1, tick_to_time_f (pm_run_f p ks) k = (Ok t, p1) /\
        (forall ks', time_to_tick_f (pm_run_f p1 ks') t = Ok k) /\
        (x - inject_Z (k * Z.of_nat n) / (1000000 * inject_Z resolution) - slack <= t /\ t <= x + slack)%Q.
Proof.
  intros n r evs last R TE W NB LE L B.
  assert (BD : bounded (Z.of_nat n) evs) by (intros e He; specialize (W e He); lia).
  destruct (resave_n_ok n r evs R TE BD ltac:(lia)) as [evs' [E [TE' V']]].
  pose proof (resave_n_ticks n r evs evs' last E ltac:(lia) B) as B'. pose proof (resave_n_len n r evs evs' R TE BD ltac:(lia) E) as LN.
  assert (UT : usual_tempi evs').
  { intros e He. assert (Wi : within 256 (2 ^ 24 - 1) evs'); [|specialize (Wi e He); lia]. apply (resave_n_within n r evs 256 (2 ^ 24 - 1) evs'); auto; try lia. intros e' He'. specialize (W e' He'). lia. }
  destruct (C159_tick_seconds r evs' last R TE' L B' ltac:(lia)) as [p [time [EP [T1 [_ [_ [_ TB]]]]]]].
  exists evs', p. split; [auto|]. split; [auto|]. intros ks k K x slack.
  destruct (C160_ticks_survive r evs' last p ks k [] R TE' UT ltac:(lia) L B' EP K) as [t [p1 [X1 _]]].
  exists t, p1. split; [auto|]. split.
  { intros ks'. destruct (C160_ticks_survive r evs' last p ks k ks' R TE' UT ltac:(lia) L B' EP K) as [t2 [p2 [X2 X3]]]. rewrite X1 in X2. injection X2 as <- <-. auto. }
  pose proof (T1 ks k K) as T2. rewrite X1 in T2. cbn [fst] in T2. apply L_Note.Ok_inj in T2. subst t. specialize (TB k ltac:(lia)).
  set (y := exact_time r evs' k) in *.
  destruct (sum_between (tick_length r evs) (tick_length r evs') (inject_Z (Z.of_nat n) / (1000000 * inject_Z r)) k ltac:(lia)) as [S1 S2].
  { intros j Hj. apply length_between; auto. apply V'. lia. }
  change (sum_to (tick_length r evs') k) with y in S1, S2. change (sum_to (tick_length r evs) k) with x in S1, S2.
  assert (EQ : (inject_Z (k * Z.of_nat n) / (1000000 * inject_Z r) == inject_Z k * (inject_Z (Z.of_nat n) / (1000000 * inject_Z r)))%Q).
  { rewrite inject_Z_mult. unfold Qdiv. ring. }
  rewrite EQ. set (c := (inject_Z k * (inject_Z (Z.of_nat n) / (1000000 * inject_Z r)))%Q) in *. clearbody c.
  assert (Y0 : (0 <= y)%Q).
  { unfold y, exact_time. pose proof (sum_between (tick_length r evs') (fun _ => 0%Q) 0%Q 0) as _. clear - TE' R K.
    rewrite <- (sum_to_0 (tick_length r evs')). destruct (Z.eq_dec k 0) as [->|]; [apply Qle_refl|]. apply Qlt_le_weak, sum_to_mono; [|lia]. intros i Hi. apply tick_length_pos; auto. }
  assert (SL : (y * (inject_Z (5 + Z.of_nat (List.length evs')) / inject_Z (2 ^ 51)) <= slack)%Q).
  { unfold slack. change (inject_Z (2 ^ 51)) with 2251799813685248%Q. assert (IL : (inject_Z (5 + Z.of_nat (List.length evs')) <= inject_Z (6 + Z.of_nat (List.length evs)))%Q) by (rewrite <- Zle_Qle; lia).
    assert (I0 : (0 <= inject_Z (5 + Z.of_nat (List.length evs')))%Q) by (change 0%Q with (inject_Z 0); rewrite <- Zle_Qle; lia).
    set (a := inject_Z (5 + Z.of_nat (List.length evs'))) in *. set (b := inject_Z (6 + Z.of_nat (List.length evs))) in *. clearbody a b.
    unfold Qdiv. set (w := (/ 2251799813685248)%Q). assert (W0 : (0 < w)%Q) by reflexivity.
    assert (P1 : (y * (a * w) <= x * (a * w))%Q) by (apply Qmult_le_compat_r; [auto|apply Qmult_le_0_compat; lra]).
    assert (P2 : (x * (a * w) <= x * (b * w))%Q) by (rewrite !(Qmult_comm x); apply Qmult_le_compat_r; [apply Qmult_le_compat_r; lra|lra]). lra. }
  destruct (Qabsb_spec (time k - y)) as [[? Z1]|[? Z1]]; rewrite Z1 in TB; split; lra.
Qed.
Print Assumptions C220_resaved.
(** 400147 microseconds a quarter note: after four rounds quarter note 480 is more than 3 microseconds early. *)
Example C220_early : bind (resave_n 4 480 [(0, 400147)]) (fun evs' => bind (pm_load_f 480 evs' 5) (fun p =>
   Ok (map (fun k => (bind (fst (tick_to_time_f p k)) (time_to_tick_f p))) [0; 3; 5], 
       bind (fst (tick_to_time_f p 480)) (fun t => Ok (Qltb t ((400147 - 3) # 1000000), Qltb (4001429 # 10000000) t))))) =
  Ok ([Ok 0; Ok 3; Ok 5], Ok (true, true)).
Proof. vm_compute; reflexivity. Qed.
Example C220_holds : tempo_events [(0, 461538); (480, 500000); (960, 400147)] /\
  (forall e, In e [(0, 461538); (480, 500000); (960, 400147)] -> 256 + Z.of_nat 4 <= snd e < 2 ^ 24 /\ fst e <= 960).
Proof.
  split; [split; [repeat constructor; cbn; lia|intros e He; cbn in He; intuition subst; cbn; lia]|].
  intros e He; cbn in He; intuition subst; cbn; lia.
Qed.
