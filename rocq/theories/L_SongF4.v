(** Tempi do not move notes, in double precision. *)
From Coq Require Import QArith Qabs Qround Lia Lqa Sorted Permutation.
From Verif Require Import PyBase L_Base M_SortedDict M_Note L_Note L_Note2 M_Ticks S_Ticks L_Ticks M_Load M_Write M_Meta S_Meta L_Meta M_Song M_Float S_Float
  L_Float L_Float2 L_Float3 L_Float4 L_Float5 M_SongF S_SongF L_SongF L_SongF2 L_SongF3.
Open Scope Z_scope.

Lemma load_facts : forall r evs last p, 0 < r -> tempo_events evs -> usual_tempi evs -> Z.of_nat (List.length evs) <= 2 ^ 40 -> 0 <= last ->
  (forall e, In e evs -> fst e <= last) -> pm_load r evs last = Ok p ->
  exists pf m mf, pm_load_f r evs last = Ok pf /\ p_res p = r /\ p_res pf = r /\ Forall2 (ps r) (p_scales p) (p_scales pf) /\ vmap m /\ pinv m p /\ vmap mf /\ finv mf pf /\
    Z.of_nat (List.length (p_times pf)) = last + 2 /\ Z.of_nat (List.length (p_times p)) = last + 2 /\ increasing mf (Z.of_nat (List.length (p_times pf))).
Proof.
  intros r evs last p R TE U LE L0 LT E. destruct (load_both r evs last p R TE U LE L0 LT E) as [pf [Ef [Rp [Rf [S [N LL]]]]]].
  unfold pm_load in E. destruct (load_ok r evs R TE) as [m [Em [V [A [B C]]]]]. rewrite Em in E. cbn [bind] in E.
  destruct (Z.ltb_spec MAX_TICK (last + 1)) as [|ML]; [discriminate|]. destruct (update_table_ok m (last + 1) V ltac:(lia)) as [a [Ea [La Ga]]]. rewrite Ea in E. cbn [bind] in E.
  destruct (pm_load_f_ok r evs last R TE ltac:(lia) LT) as [pf2 [mf [b [Ef2 [Emf [Lf [If Len]]]]]]]. rewrite Ef in Ef2. apply L_Note.Ok_inj in Ef2. subst pf2. exists pf, m, mf. split; auto. split; auto. split; auto. split; auto.
  apply L_Note.Ok_inj in E. subst p. cbn [p_times] in *. split; auto. split.
  - split; [reflexivity|]. cbn [p_times]. assert (LK : last_tick m <= last). { apply last_tick_le; auto. intros e He. destruct (C e He) as [->|[e' [H1 <-]]]; auto. }
    split; [lia|]. rewrite La. replace (Z.max (last + 1) (last_tick m) + 1 - 1) with (Z.max (last + 1) (last_tick m)) by lia. auto.
  - split; [exact (linv_vmap r evs mf b R TE Lf)|]. split; auto. split; auto. split; [lia|]. intros j J1 J2. apply (time_strict r evs mf b j R TE); auto. split; auto. unfold MAX_TICK in ML. lia.
Qed.

Definition tsame (a b : Z * meta) : Prop := fst a = fst b /\ (snd a = snd b \/ exists us us', snd a = MTempo us /\ snd b = MTempo us').
Lemma view_meta : forall t t', Forall2 same_but_tempo t t' -> Forall2 tsame (view as_meta t) (view as_meta t').
Proof.
  intros t t' H. induction H as [|[a m] [b n] t t' [A B] H IH]; cbn; constructor; auto. cbn in *. subst b. split; auto. cbn. destruct B as [->|[us [us' [-> ->]]]]; [auto|right; exists us, us'; auto].
Qed.
Lemma view_msg : forall t t', Forall2 same_but_tempo t t' -> view as_msg t' = view as_msg t.
Proof.
  intros t t' H. induction H as [|[a m] [b n] t t' [A B] H IH]; auto. unfold view in *. cbn [map fst snd]. rewrite IH. cbn in *. subst b. destruct B as [->|[us [us' [-> ->]]]]; auto.
Qed.
Lemma abs_same : forall t t', Forall2 tsame t t' -> forall k, Forall2 tsame (absolute k t) (absolute k t').
Proof. intros t t' H. induction H as [|[a m] [b n] t t' [A B] H IH]; intros k; cbn [absolute]; constructor; cbn in *; subst; auto. split; auto. Qed.
Lemma ticks_same : forall t t', Forall2 tsame t t' -> map fst t' = map fst t.
Proof. intros t t' H. induction H as [|a b t t' [A B] H IH]; auto. cbn [map]. rewrite IH, A. auto. Qed.
Lemma max_same : forall l l', Forall2 (Forall2 tsame) l l' -> each_max l' = each_max l.
Proof. intros l l' H. induction H as [|a b l l' A H IH]; auto. cbn [each_max]. rewrite IH, (ticks_same _ _ A). auto. Qed.
Lemma meta_cross : forall keynum p pf, nthall p pf -> forall l l', Forall2 tsame l l' -> forall d df, mrel p pf d df ->
  same_outcome (mrel p pf) (load_metadata keynum p d l) (load_metadata keynum pf df l').
Proof.
  intros keynum p pf N l l' H. induction H as [|a b l l' [A B] H IH]; intros d df M; [exact M|]. cbn [load_metadata].
  apply so_bind with (R := mrel p pf); [|apply IH]. destruct B as [B|[us [us' [B1 B2]]]].
  - assert (AB : a = b) by (destruct a, b; cbn in *; subst; auto). subst b. pose proof (meta_all keynum p pf N [a] d df M) as X. cbn [load_metadata] in X.
    destruct (meta_step keynum p d a), (meta_step keynum pf df a); exact X.
  - unfold meta_step. rewrite B1, B2. exact M.
Qed.
(** What loading gives, whatever the tempi. *)
Definition xrel (p pf : pm) : Prop := 0 < p_res p /\ 0 < p_res pf /\ nthall p pf /\
  (exists x, Forall2 (ps (p_res p)) (p_scales p) x /\ x <> []) /\ (exists x, Forall2 (ps (p_res pf)) x (p_scales pf) /\ x <> []).
Lemma first_facts : forall t0 rest, midi_file (t0 :: rest) -> let a0 := absolute 0 (view as_meta t0) in
  (forall e, In e (view as_meta t0) -> 0 <= fst e) /\ tempo_events (tempi_of a0) /\ usual_tempi (tempi_of a0) /\ Z.of_nat (List.length (tempi_of a0)) <= 2 ^ 40.
Proof.
  intros t0 rest [F1 [F2 F3]] a0.
  assert (P0 : forall e, In e (view as_meta t0) -> 0 <= fst e). { intros e He. apply in_map_iff in He as [[k m] [<- He]]. apply (F1 t0 (k, m)); auto. left; auto. }
  assert (TU : forall k us, In (k, MTempo us) (view as_meta t0) -> 256 <= us < 2 ^ 24).
  { intros k us He. apply in_map_iff in He as [[k' m] [X He]]. injection X as -> X. cbn [snd] in X. destruct m as [m|m]; [cbn in X; subst m|discriminate]. apply (F2 t0 rest k us); auto. }
  split; auto. split; [unfold a0; rewrite tempi_eq, absolute_events; apply tempo_events_of; auto; intros k us He; specialize (TU k us He); lia|]. split.
  - intros [k us] He. rewrite tempi_eq in He. apply in_tempi in He. apply absolute_in in He as [dd He]. cbn [snd]. apply (TU dd us He).
  - pose proof (tempi_len a0) as X. unfold a0 in X at 2. rewrite absolute_len in X. unfold view in X. rewrite map_length in X. specialize (F3 t0 rest eq_refl). lia.
Qed.
Lemma ps_nonempty : forall r m (x : list (Z * Q)), vmap m -> Forall2 (ps r) m x -> m <> [] /\ x <> [].
Proof. intros r m x [[s [l ->]] _] F. inversion F; subst. split; discriminate. Qed.
Lemma from_file_cross : forall keynum r file file', 0 < r -> midi_file file -> midi_file file' -> Forall2 (Forall2 same_but_tempo) file file' ->
  same_outcome (fun a b => xrel (fst a) (fst b) /\ mrel (fst a) (fst b) (snd a) (snd b)) (from_file keynum r (map (view as_meta) file)) (from_file_f keynum r (map (view as_meta) file')).
Proof.
  intros keynum r file file' R MF MF' H. unfold from_file, from_file_f. cbv zeta. destruct H as [|t0 t0' rest rest' H0 H]; [reflexivity|]. cbn [map].
  set (a0 := absolute 0 (view as_meta t0)). set (a0' := absolute 0 (view as_meta t0')).
  destruct (first_facts t0 rest MF) as [P0 [TE [UT LN]]]. destruct (first_facts t0' rest' MF') as [P0' [TE' [UT' LN']]]. fold a0 in TE, UT, LN. fold a0' in TE', UT', LN'.
  pose proof (abs_same _ _ (view_meta _ _ H0) 0) as AS. fold a0 a0' in AS.
  assert (MX : each_max (a0' :: map (absolute 0) (map (view as_meta) rest')) = each_max (a0 :: map (absolute 0) (map (view as_meta) rest))).
  { apply max_same. constructor; auto. clear -H. induction H; cbn [map]; constructor; auto. apply abs_same. apply view_meta. auto. }
  rewrite MX. destruct (load_rel r (tempi_of a0) R UT) as [m [mf [E1 _]]]. rewrite E1. destruct (load_rel r (tempi_of a0') R UT') as [m' [mf' [_ [E2 _]]]]. rewrite E2. cbn [bind].
  destruct (each_max (a0 :: map (absolute 0) (map (view as_meta) rest))) as [ms|] eqn:EM; [|reflexivity]. cbn [bind]. destruct (py_max ms) as [last|] eqn:E3; [|reflexivity]. cbn [bind].
  cbn [each_max] in EM. apply bind_ok in EM as [m0 [E6 EM]]. apply bind_ok in EM as [ms' [E7 EM]]. injection EM as <-.
  destruct (max_bound _ _ E6) as [[x0 X0] B0]. destruct (max_bound _ _ E3) as [_ B1]. pose proof (B1 m0 (or_introl eq_refl)) as B2.
  assert (L0 : 0 <= last). { pose proof (B0 x0 X0). apply in_map_iff in X0 as [e [<- He]]. pose proof (absolute_ge _ 0 P0 e He). lia. }
  assert (LT : forall e, In e (tempi_of a0) -> fst e <= last).
  { intros [k us] He. rewrite tempi_eq in He. apply in_tempi in He. specialize (B0 k). cbn [fst]. assert (X : In k (map fst a0)) by (apply in_map_iff; exists (k, MTempo us); auto). specialize (B0 X). lia. }
  assert (LT' : forall e, In e (tempi_of a0') -> fst e <= last).
  { intros [k us] He. rewrite tempi_eq in He. apply in_tempi in He. specialize (B0 k). cbn [fst]. assert (X : In k (map fst a0)) by (rewrite <- (ticks_same _ _ AS); apply in_map_iff; exists (k, MTempo us); auto). specialize (B0 X). lia. }
  destruct (Z_lt_le_dec last MAX_TICK) as [L|L].
  - destruct (pm_load_ok r (tempi_of a0) last R TE L0 L) as [p [? [E4 _]]]. destruct (pm_load_ok r (tempi_of a0') last R TE' L0 L) as [p' [? [E4' _]]].
    destruct (load_facts r _ last p R TE UT LN L0 LT E4) as [pf [n [nf [_ [Rp [_ [S [V [I [_ [_ [_ [Lp _]]]]]]]]]]]]].
    destruct (load_facts r _ last p' R TE' UT' LN' L0 LT' E4') as [pf' [n' [nf' [Ef' [Rp' [Rf' [S' [V' [I' [Vf' [If' [Lf' [Lp' IN]]]]]]]]]]]]].
    rewrite E4, Ef'. cbn [bind].
    assert (NA : nthall p pf') by (apply nth_all; [lia|apply (nth_rel n nf'); auto; lia]).
    apply so_bind with (R := mrel p pf'); [apply meta_cross; auto; repeat split; constructor|]. intros d df M. cbn. split; auto.
    split; [lia|]. split; [lia|]. split; auto. rewrite Rp, Rf'. destruct I as [I _]. destruct I' as [I' _]. split.
    + exists (p_scales pf). split; auto. destruct (ps_nonempty r (p_scales p) _ ltac:(rewrite I; auto) S). auto.
    + exists (p_scales p'). split; auto. destruct (ps_nonempty r (p_scales p') _ ltac:(rewrite I'; auto) S'). auto.
  - rewrite (pm_load_reject r (tempi_of a0) last R TE L). unfold pm_load_f. rewrite E2. cbn [bind]. destruct (Z.ltb_spec MAX_TICK (last + 1)); [reflexivity|lia].
Qed.
Lemma tempo_ok_e : forall r sc x, 0 < r -> Forall2 (ps r) sc x -> x <> [] ->
  exists l, mapM (fun e => if tempo_fits (snd e) then Ok (fst e, MTempo (snd e)) else Err ValueError) (write_tempo r sc) = Ok l /\ l <> [].
Proof.
  intros r sc x R F NE. pose proof (tempo_all (mkPM r sc []) (mkPM r x []) R eq_refl F) as T. unfold tempo_messages, tempo_messages_f in T. cbn [p_res p_scales] in T.
  pose proof (write_rel (mkPM r sc []) (mkPM r x []) R eq_refl F) as W. cbn [p_res p_scales] in W. destruct F as [|a b sc x A F]; [contradiction|].
  clear T NE. set (l1 := write_tempo r (a :: sc)) in *. set (l2 := write_tempo_f r (b :: x)) in *. assert (N : l1 <> []) by (unfold l1; discriminate).
  assert (G : forall l : list (Z * Z), (forall e, In e l -> 256 <= snd e < 2 ^ 24) -> exists o, mapM (fun e => if tempo_fits (snd e) then Ok (fst e, MTempo (snd e)) else Err ValueError) l = Ok o /\ List.length o = List.length l).
  { induction l as [|e l IH]; intros H; [exists []; auto|]. cbn [mapM]. pose proof (H e (or_introl eq_refl)). assert (X : tempo_fits (snd e) = true) by (unfold tempo_fits; destruct (Z.leb_spec 0 (snd e)), (Z.leb_spec (snd e) 16777215); auto; lia).
    rewrite X. cbn [bind]. destruct (IH (fun y Hy => H y (or_intror Hy))) as [o [-> L]]. cbn [bind]. eexists. split; [reflexivity|cbn; auto]. }
  destruct (G l1) as [o [E L]].
  { intros e He. clear -W He. induction W as [|c d l l' C W IH]; [destruct He|]. destruct He as [<-|He]; [apply C|auto]. }
  exists o. split; auto. intros ->. destruct l1; [congruence|discriminate].
Qed.
Lemma tempo_ok_f : forall p sc, 0 < p_res p -> Forall2 (ps (p_res p)) sc (p_scales p) -> sc <> [] -> exists l, tempo_messages_f p = Ok l /\ l <> [].
Proof.
  intros p sc R F NE. pose proof (tempo_all (mkPM (p_res p) sc []) p R eq_refl F) as T.
  assert (NX : p_scales p <> []) by (intros E; rewrite E in F; inversion F; subst; contradiction).
  destruct (tempo_ok_e (p_res p) sc (p_scales p) R F NX) as [l [E N]]. unfold tempo_messages in T. cbn [p_res p_scales] in T. rewrite E in T.
  destruct (tempo_messages_f p) as [l'|]; [|contradiction]. cbn in T. exists l'. split; auto. intros ->. inversion T; subst. contradiction.
Qed.
