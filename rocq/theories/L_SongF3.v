(** Pieces in double precision and in exact arithmetic are refused with the same exceptions. *)
From Coq Require Import QArith Qabs Qround Lia Lqa Sorted.
From Verif Require Import PyBase L_Base M_SortedDict M_Note L_Note M_Ticks S_Ticks L_Ticks M_Load M_Write M_Meta S_Meta L_Meta M_Song M_Float S_Float
  L_Float L_Float2 L_Float3 L_Float4 L_Float5 M_SongF S_SongF L_SongF L_SongF2.
Open Scope Z_scope.

Lemma so_bind : forall A A' B B' (R : A -> A' -> Prop) (R' : B -> B' -> Prop) x y f g, same_outcome R x y ->
  (forall a b, R a b -> same_outcome R' (f a) (g b)) -> same_outcome R' (bind x f) (bind y g).
Proof. intros A A' B B' R R' [a|e] [b|e'] f g H F; cbn in *; auto; contradiction. Qed.
Lemma so_eq : forall A (x : res A), same_outcome eq x x.
Proof. intros A [a|e]; reflexivity. Qed.
Lemma so_mapM : forall A A' B B' (S : A -> A' -> Prop) (R : B -> B' -> Prop) f g l l', Forall2 S l l' ->
  (forall a a', S a a' -> same_outcome R (f a) (g a')) -> same_outcome (Forall2 R) (mapM f l) (mapM g l').
Proof.
  intros A A' B B' S R f g l l' H F. induction H as [|a a' l l' X H IH]; [constructor|]. cbn [mapM].
  apply so_bind with (R := R); [apply F; auto|]. intros b b' Y. apply so_bind with (R := Forall2 R); auto. intros bs bs' Z. constructor; auto.
Qed.
Lemma so_impl : forall A B (R R' : A -> B -> Prop) x y, (forall a b, R a b -> R' a b) -> same_outcome R x y -> same_outcome R' x y.
Proof. intros A B R R' [a|e] [b|e'] F H; cbn in *; auto. Qed.
Lemma so_mapM_eq : forall A A' B (S : A -> A' -> Prop) (f : A -> res B) g l l', Forall2 S l l' ->
  (forall a a', S a a' -> g a' = f a) -> mapM g l' = mapM f l.
Proof. intros A A' B S f g l l' H F. induction H as [|a a' l l' X H IH]; auto. cbn [mapM]. rewrite (F a a' X), IH. auto. Qed.

Definition nthall (p pf : pm) : Prop := forall i, same_outcome (at2 p pf) (py_nth (p_times p) i) (py_nth (p_times pf) i).
Lemma nth_all : forall p pf, List.length (p_times pf) = List.length (p_times p) -> nthrel p pf -> nthall p pf.
Proof.
  intros p pf L N i. destruct (py_nth (p_times p) i) as [t|e] eqn:E; [destruct (N i t E) as [tf [-> A]]; exact A|].
  unfold py_nth in *. rewrite L. set (j := if i <? 0 then _ else _) in *. destruct (j <? 0); [injection E as <-; reflexivity|].
  destruct (nth_error (p_times p) (Z.to_nat j)) eqn:X; [discriminate|]. apply nth_error_None in X. rewrite <- L in X. apply nth_error_None in X. rewrite X. injection E as <-. reflexivity.
Qed.
Lemma meta_all : forall keynum p pf, nthall p pf -> forall l d df, mrel p pf d df -> same_outcome (mrel p pf) (load_metadata keynum p d l) (load_metadata keynum pf df l).
Proof.
  intros keynum p pf N. induction l as [|[k m] l IH]; intros d df M; [exact M|]. cbn [load_metadata].
  apply so_bind with (R := mrel p pf); [|apply IH]. destruct M as [M1 [M2 M3]]. unfold meta_step. cbn [fst snd]. destruct m as [us|s|n dd|s|].
  - split; auto.
  - destruct (keynum s) as [kk|e]; [|reflexivity]. cbn [bind]. apply so_bind with (R := at2 p pf); [apply N|]. intros a b X.
    destruct ((0 <=? kk) && (kk <? 24)); [|reflexivity]. split; [|split]; cbn; auto. apply F2_snoc; auto.
  - apply so_bind with (R := at2 p pf); [apply N|]. intros a b X.
    destruct ((0 <? n) && (0 <? dd)); [|reflexivity]. split; [|split]; cbn; auto. apply F2_snoc; auto.
  - apply so_bind with (R := at2 p pf); [apply N|]. intros a b X. split; [|split]; cbn; auto. apply F2_snoc; auto.
  - split; auto.
Qed.
Lemma seconds_all : forall p pf s i, nthall p pf -> same_outcome (irel p pf) (to_seconds p s i) (to_seconds pf s i).
Proof.
  intros p pf s i N. unfold to_seconds. cbv zeta. set (c := match nth_error (l_cells s) (pi_cell i) with Some c => c | None => mkC [] [] end).
  apply so_bind with (R := Forall2 (nrel p pf)).
  { apply so_mapM with (S := eq); [apply Forall2_same|]. intros a a' <-. apply so_bind with (R := at2 p pf); [apply N|]. intros x y X. apply so_bind with (R := at2 p pf); [apply N|].
    intros x' y' X'. cbn. unfold nrel. cbn. auto. }
  intros ns nf R1. apply so_bind with (R := Forall2 (brel p pf)).
  { apply so_mapM with (S := eq); [apply Forall2_same|]. intros a a' <-. apply so_bind with (R := at2 p pf); [apply N|]. intros x y X. cbn. unfold brel. cbn. auto. }
  intros bs bf R2. apply so_bind with (R := Forall2 (crel p pf)).
  { apply so_mapM with (S := eq); [apply Forall2_same|]. intros a a' <-. apply so_bind with (R := at2 p pf); [apply N|]. intros x y X. cbn. unfold crel. cbn. auto. }
  intros cs cf R3. cbn. unfold irel. cbn. split; [reflexivity|]. split; [reflexivity|]. split; [reflexivity|]. auto.
Qed.
Lemma at2_eq : forall p pf t tf, at2 p pf t tf -> time_to_tick_f pf tf = time_to_tick p t.
Proof. intros p pf t tf [k [-> [-> _]]]. auto. Qed.
Lemma ticks_all : forall p pf i j, irel p pf i j -> to_ticks_f pf j = to_ticks p i.
Proof.
  intros p pf i j [A1 [A2 [A3 [A4 [A5 A6]]]]]. unfold to_ticks, to_ticks_f.
  rewrite (so_mapM_eq _ _ _ _ (fun n => bind (time_to_tick p (sn_start n)) (fun s => bind (time_to_tick p (sn_end n)) (fun e => Ok (mkP (sn_vel n) (sn_pitch n) s e)))) _ _ _ A4).
  2:{ intros a a' [V [P [K1 K2]]]. rewrite (at2_eq _ _ _ _ K1), (at2_eq _ _ _ _ K2), V, P. auto. }
  rewrite (so_mapM_eq _ _ _ _ (fun b => bind (time_to_tick p (fst b)) (fun k => Ok (k, snd b))) _ _ _ A5).
  2:{ intros a a' [V K]. rewrite (at2_eq _ _ _ _ K), V. auto. }
  rewrite (so_mapM_eq _ _ _ _ (fun c => bind (time_to_tick p (fst (fst c))) (fun k => Ok (k, snd (fst c), snd c))) _ _ _ A6).
  2:{ intros a a' [V [P K]]. rewrite (at2_eq _ _ _ _ K), V, P. auto. }
  rewrite A1, A2, A3. auto.
Qed.
Lemma write_rel : forall p pf, 0 < p_res p -> p_res pf = p_res p -> Forall2 (ps (p_res p)) (p_scales p) (p_scales pf) ->
  Forall2 (fun x y => fst x = fst y /\ 256 <= snd x < 2 ^ 24 /\ snd x - 1 <= snd y <= snd x) (write_tempo (p_res p) (p_scales p)) (write_tempo_f (p_res pf) (p_scales pf)).
Proof.
  intros p pf R E F. rewrite E. set (r := p_res p) in *. pose proof (Zq r R) as RQ. unfold write_tempo, write_tempo_f.
  induction F as [|x y sc scf [P1 [t [T [S1 S2]]]] F IH]; cbn [map]; constructor; auto. cbn [fst snd].
  assert (TQ : (0 < inject_Z t)%Q) by (apply Zq; lia).
  assert (X : Qfloor (60000000 / (60 / (snd x * inject_Z r))) = t).
  { rewrite S1. setoid_replace (60000000 / (60 / (inject_Z t / (1000000 * inject_Z r) * inject_Z r)))%Q with (inject_Z t) by (field; split; lra). apply Qfloor_Z. }
  rewrite X. split; auto. split; auto. rewrite S2. destruct (sv_ok t r ltac:(lia) R) as [Ef _]. apply (saved_le t r (sv r t)); auto. lia.
Qed.
Lemma tempo_all : forall p pf, 0 < p_res p -> p_res pf = p_res p -> Forall2 (ps (p_res p)) (p_scales p) (p_scales pf) ->
  same_outcome (Forall2 slow) (tempo_messages p) (tempo_messages_f pf).
Proof.
  intros p pf R E F. unfold tempo_messages, tempo_messages_f. eapply so_mapM; [apply (write_rel p pf); auto|].
  intros [k us] [k' us'] [A1 [A2 A3]]. cbn [fst snd] in *. subst k'.
  assert (X : tempo_fits us = true) by (unfold tempo_fits; destruct (Z.leb_spec 0 us), (Z.leb_spec us 16777215); auto; lia).
  assert (X' : tempo_fits us' = true) by (unfold tempo_fits; destruct (Z.leb_spec 0 us'), (Z.leb_spec us' 16777215); auto; lia).
  rewrite X, X'. split; [reflexivity|]. right. exists us, us'. cbn. auto.
Qed.
Lemma timing_all : forall p pf d df is js, 0 < p_res p -> p_res pf = p_res p -> Forall2 (ps (p_res p)) (p_scales p) (p_scales pf) -> mrel p pf d df ->
  same_outcome (Forall2 fslow) (timing_track (mkSong p d is)) (timing_track_f (mkSong pf df js)).
Proof.
  intros p pf d df is js R E F [M1 [M2 M3]]. unfold timing_track, timing_track_f. cbn [sg_pm sg_meta]. cbv zeta.
  apply so_bind with (R := Forall2 slow); [apply tempo_all; auto|]. intros tempi tf R1.
  assert (G2 : signature_messages_f pf (md_times df) = signature_messages p (md_times d)).
  { unfold signature_messages, signature_messages_f. apply (so_mapM_eq _ _ _ _ _ _ _ _ M2). intros a a' [A K]. rewrite (at2_eq _ _ _ _ K), A. auto. }
  assert (G3 : key_messages_f pf (md_keys df) = key_messages p (md_keys d)).
  { unfold key_messages, key_messages_f. apply (so_mapM_eq _ _ _ _ _ _ _ _ M1). intros a a' [A K]. rewrite (at2_eq _ _ _ _ K), A. auto. }
  assert (G4 : lyric_messages_f pf (md_lyrics df) = lyric_messages p (md_lyrics d)).
  { unfold lyric_messages, lyric_messages_f. apply (so_mapM_eq _ _ _ _ _ _ _ _ M3). intros a a' [A K]. rewrite (at2_eq _ _ _ _ K), A. auto. }
  rewrite G2, G3, G4. rewrite <- (default_rel _ _ _ _ M2).
  apply so_bind with (R := eq); [apply so_eq|]. intros sigs ? <-. apply so_bind with (R := eq); [apply so_eq|]. intros keys ? <-. apply so_bind with (R := eq); [apply so_eq|]. intros lyr ? <-.
  set (def := if needs_default (md_times d) then [(0, MTime 4 4)] else []).
  assert (S : Forall2 slow (py_sort meta_lt (def ++ tempi ++ sigs ++ keys ++ lyr)) (py_sort meta_lt (def ++ tf ++ sigs ++ keys ++ lyr))).
  { apply sort_rel; [exact slow_lt|]. apply Forall2_app; [apply slow_refl|]. apply Forall2_app; auto. apply slow_refl. }
  set (ev := py_sort meta_lt (def ++ tempi ++ sigs ++ keys ++ lyr)) in *. set (evf := py_sort meta_lt (def ++ tf ++ sigs ++ keys ++ lyr)) in *.
  pose proof (Forall2_rev' _ _ _ _ _ S) as SR. destruct SR as [|e e' re re' X1 X2]; [reflexivity|].
  cbn. apply Forall2_app; [apply view_slow; auto|]. destruct X1 as [-> _]. constructor; [split; auto|constructor].
Qed.
Lemma fdelta_all : forall l l', Forall2 (Forall2 fslow) l l' -> Forall2 (Forall2 fslow) (map (f_delta 0) l) (map (f_delta 0) l').
Proof. intros l l' H. induction H; cbn [map]; constructor; auto. apply delta_rel; auto. Qed.
Lemma ffslow_refl : forall l, Forall2 (Forall2 fslow) l l.
Proof. induction l; constructor; auto. apply fslow_refl. Qed.
Lemma serialize_all : forall dc p pf d df is js file, 0 < p_res p -> p_res pf = p_res p -> Forall2 (ps (p_res p)) (p_scales p) (p_scales pf) -> mrel p pf d df ->
  Forall2 (irel p pf) is js -> same_outcome (Forall2 (Forall2 fslow)) (serialize dc (mkSong p d is) file) (serialize_f dc (mkSong pf df js) file).
Proof.
  intros dc p pf d df is js file R E F M I. unfold serialize, serialize_f. cbn [sg_pm sg_insts].
  apply so_bind with (R := Forall2 fslow); [apply timing_all; auto|]. intros t0 t0f S. destruct ((0 <=? dc) && (dc <? 16)); [|reflexivity].
  assert (G : mapM (to_ticks_f pf) js = mapM (to_ticks p) is) by (apply (so_mapM_eq _ _ _ _ _ _ _ _ I); intros; apply ticks_all; auto).
  rewrite G. apply so_bind with (R := eq); [apply so_eq|]. intros ws ? <-. destruct (forallb messages_fit ws); [|reflexivity].
  cbn. apply fdelta_all. apply Forall2_app; [apply ffslow_refl|]. constructor; auto. apply ffslow_refl.
Qed.
Definition prel (p pf : pm) : Prop := 0 < p_res p /\ p_res pf = p_res p /\ Forall2 (ps (p_res p)) (p_scales p) (p_scales pf) /\ nthall p pf.
Lemma from_file_all : forall keynum r file, 0 < r -> midi_file file ->
  same_outcome (fun a b => prel (fst a) (fst b) /\ mrel (fst a) (fst b) (snd a) (snd b)) (from_file keynum r (map (view as_meta) file)) (from_file_f keynum r (map (view as_meta) file)).
Proof.
  intros keynum r file R [F1 [F2 F3]]. unfold from_file, from_file_f. cbv zeta. destruct file as [|t0 rest]; [reflexivity|]. cbn [map].
  set (a0 := absolute 0 (view as_meta t0)).
  assert (P0 : forall e, In e (view as_meta t0) -> 0 <= fst e). { intros e He. apply in_map_iff in He as [[k m] [<- He]]. apply (F1 t0 (k, m)); auto. left; auto. }
  assert (TU : forall k us, In (k, MTempo us) (view as_meta t0) -> 256 <= us < 2 ^ 24).
  { intros k us He. apply in_map_iff in He as [[k' m] [X He]]. injection X as -> X. cbn [snd] in X. destruct m as [m|m]; [cbn in X; subst m|discriminate]. apply (F2 t0 rest k us); auto. }
  assert (TE : tempo_events (tempi_of a0)).
  { unfold a0. rewrite tempi_eq, absolute_events. apply tempo_events_of; auto. intros k us He. specialize (TU k us He). lia. }
  assert (UT : usual_tempi (tempi_of a0)).
  { intros [k us] He. rewrite tempi_eq in He. apply in_tempi in He. apply absolute_in in He as [dd He]. cbn [snd]. apply (TU dd us He). }
  assert (LN : Z.of_nat (List.length (tempi_of a0)) <= 2 ^ 40).
  { pose proof (tempi_len a0) as X. unfold a0 in X at 2. rewrite absolute_len in X. unfold view in X. rewrite map_length in X. specialize (F3 t0 rest eq_refl). lia. }
  destruct (load_rel r (tempi_of a0) R UT) as [m [mf [E1 [E2 _]]]]. rewrite E1, E2. cbn [bind].
  destruct (each_max (a0 :: map (absolute 0) (map (view as_meta) rest))) as [ms|] eqn:EM; [|reflexivity]. cbn [bind]. destruct (py_max ms) as [last|] eqn:E3; [|reflexivity]. cbn [bind].
  cbn [each_max] in EM. apply bind_ok in EM as [m0 [E6 EM]]. apply bind_ok in EM as [ms' [E7 EM]]. injection EM as <-.
  destruct (max_bound _ _ E6) as [[x0 X0] B0]. destruct (max_bound _ _ E3) as [_ B1]. pose proof (B1 m0 (or_introl eq_refl)) as B2.
  assert (L0 : 0 <= last). { pose proof (B0 x0 X0). apply in_map_iff in X0 as [e [<- He]]. pose proof (absolute_ge _ 0 P0 e He). lia. }
  assert (LT : forall e, In e (tempi_of a0) -> fst e <= last).
  { intros [k us] He. rewrite tempi_eq in He. apply in_tempi in He. specialize (B0 k). cbn [fst]. assert (In k (map fst a0)) by (apply in_map_iff; exists (k, MTempo us); auto). specialize (B0 H). lia. }
  destruct (pm_load r (tempi_of a0) last) as [p|e] eqn:E4.
  - destruct (load_both r (tempi_of a0) last p R TE UT LN L0 LT E4) as [pf [Ef [Rp [Rf [S [N LL]]]]]]. rewrite Ef. cbn [bind].
    pose proof (nth_all p pf LL N) as NA. apply so_bind with (R := mrel p pf); [apply meta_all; auto; repeat split; constructor|]. intros d df M. cbn. split; auto.
    split; [rewrite Rp; auto|]. split; [rewrite Rp, Rf; auto|]. split; [rewrite Rp; auto|auto].
  - destruct (Z_lt_le_dec last MAX_TICK) as [L|L]; [destruct (pm_load_ok r (tempi_of a0) last R TE L0 L) as [p [m' [X _]]]; congruence|].
    rewrite (pm_load_reject r (tempi_of a0) last R TE L) in E4. injection E4 as <-. unfold pm_load_f. rewrite E2. cbn [bind]. destruct (Z.ltb_spec MAX_TICK (last + 1)); [reflexivity|lia].
Qed.
Lemma song_all : forall keynum dc r file, 0 < r -> midi_file file ->
  same_outcome (fun sg sgf => forall dc' old, same_outcome (Forall2 (Forall2 fslow)) (serialize dc' sg old) (serialize_f dc' sgf old))
    (load_song keynum dc r file) (load_song_f keynum dc r file).
Proof.
  intros keynum dc r file R MF. unfold load_song, load_song_f. eapply so_bind; [apply from_file_all; auto|]. intros [p d] [pf df] [[P1 [P2 [P3 P4]]] M]. cbn [fst snd] in *. cbv zeta.
  apply so_bind with (R := Forall2 (irel p pf)).
  - apply so_mapM with (S := eq); [apply Forall2_same|]. intros a a' <-. apply seconds_all; auto.
  - intros is js I. cbn. intros dc' old. apply serialize_all; auto.
Qed.
