(** Pieces in double precision and in exact arithmetic have the same ticks: tables and pieces. *)
From Coq Require Import QArith Qabs Qround Lia Lqa Sorted.
From Verif Require Import PyBase L_Base M_SortedDict M_Note L_Note M_Ticks S_Ticks L_Ticks M_Load M_Write M_Meta S_Meta L_Meta M_Song M_Float S_Float
  L_Float L_Float2 L_Float3 L_Float4 L_Float5 M_SongF S_SongF L_SongF.
Open Scope Z_scope.

(** ** the table *)
Definition at2 (p pf : pm) (t tf : Q) : Prop := exists k, time_to_tick p t = Ok k /\ time_to_tick_f pf tf = Ok k /\ Qltb 0 t = Qltb 0 tf.
Definition nthrel (p pf : pm) : Prop := forall i t, py_nth (p_times p) i = Ok t -> exists tf, py_nth (p_times pf) i = Ok tf /\ at2 p pf t tf.

Lemma back_e : forall m p k t, vmap m -> pinv m p -> 0 <= k -> (t == T m k)%Q -> time_to_tick p t = Ok k.
Proof.
  intros m p k t V I K E. destruct (time_to_tick_ok m p t V I) as [k' [E' [K' N]]]. rewrite E'. f_equal.
  apply (exact_tick (L_Ticks.tf m) t); auto. intros i Hi. apply at_tick_pos; auto.
Qed.
Lemma nth_rel : forall m mf p pf, vmap m -> pinv m p -> vmap mf -> finv mf pf ->
  List.length (p_times pf) = List.length (p_times p) -> increasing mf (Z.of_nat (List.length (p_times pf))) -> nthrel p pf.
Proof.
  intros m mf p pf V I Vf If L IN i t E. unfold py_nth in *. rewrite L. set (j := if i <? 0 then i + Z.of_nat (List.length (p_times p)) else i) in *.
  destruct (Z.ltb_spec j 0) as [|J]; [discriminate|]. destruct (nth_error (p_times p) (Z.to_nat j)) as [t0|] eqn:Et; [|discriminate]. injection E as <-.
  assert (JL : (Z.to_nat j < List.length (p_times p))%nat) by (apply nth_error_Some; congruence).
  destruct I as [I1 [I2 I3]]. destruct If as [F1 [F2 F3]]. rewrite (F3 j) by lia.
  destruct (I3 j ltac:(lia)) as [q [Eq Hq]]. rewrite Et in Eq. injection Eq as <-.
  eexists. split; [reflexivity|]. exists j. split; [apply (back_e m p j t0 V); [repeat split; auto|lia|auto]|]. split; [apply (back_f mf pf j); [repeat split; auto|auto|lia]|].
  assert (Z0 : ft 0 mf 0 = 0%Q).
  { destruct Vf as [[s [rr ->]] [Sm _]]. apply ft_start; [split; [lra|reflexivity]|]. intros x Hx. inversion Sm as [|? ? _ FA]; subst. rewrite Forall_forall in FA. apply (FA x Hx). }
  destruct (Z.eq_dec j 0) as [J0|J0].
  - rewrite J0, Z0. rewrite J0 in Hq. assert (A : T m 0 = 0%Q) by reflexivity. rewrite A in Hq. transitivity false; [|symmetry]; apply Qltb_ge; rewrite ?Hq; apply Qle_refl.
  - pose proof (T_mono m 0 j V ltac:(lia)) as A. assert (A0 : T m 0 = 0%Q) by reflexivity. rewrite A0 in A.
    pose proof (increasing_lt mf (Z.of_nat (List.length (p_times pf))) 0 j IN ltac:(lia) ltac:(lia)) as B. rewrite Z0 in B.
    transitivity true; [|symmetry]; apply Qltb_lt; rewrite ?Hq; auto.
Qed.
Lemma load_both : forall r evs last p, 0 < r -> tempo_events evs -> usual_tempi evs -> Z.of_nat (List.length evs) <= 2 ^ 40 -> 0 <= last ->
  (forall e, In e evs -> fst e <= last) -> pm_load r evs last = Ok p ->
  exists pf, pm_load_f r evs last = Ok pf /\ p_res p = r /\ p_res pf = r /\ Forall2 (ps r) (p_scales p) (p_scales pf) /\ nthrel p pf /\
    List.length (p_times pf) = List.length (p_times p).
Proof.
  intros r evs last p R TE U LE L0 LT E. unfold pm_load in E. destruct (load_ok r evs R TE) as [m [Em [V [A [B C]]]]]. rewrite Em in E. cbn [bind] in E.
  destruct (Z.ltb_spec MAX_TICK (last + 1)) as [|ML]; [discriminate|]. destruct (update_table_ok m (last + 1) V ltac:(lia)) as [a [Ea [La Ga]]]. rewrite Ea in E. cbn [bind] in E. injection E as <-.
  destruct (pm_load_f_ok r evs last R TE ltac:(lia) LT) as [pf [mf [b [Ef [Emf [Lf [If Len]]]]]]]. exists pf. split; auto. split; [reflexivity|].
  assert (Pf : p_res pf = r /\ p_scales pf = mf).
  { unfold pm_load_f in Ef. rewrite Emf in Ef. cbn [bind] in Ef. destruct (MAX_TICK <? last + 1); [discriminate|]. destruct (update_table_f mf (last + 1)); [|discriminate]. injection Ef as <-. auto. }
  destruct Pf as [Pf1 Pf2]. split; auto. cbn [p_scales p_res p_times]. split.
  - rewrite Pf2. destruct (load_rel r evs R U) as [m' [mf' [E1 [E2 F]]]]. rewrite Em in E1. rewrite Emf in E2. injection E1 as <-. injection E2 as <-. auto.
  - assert (LK : last_tick m <= last). { apply last_tick_le; auto. intros e He. destruct (C e He) as [->|[e' [H1 <-]]]; auto. }
    assert (LL : List.length (p_times pf) = List.length a) by lia. split; [|exact LL]. apply (nth_rel m mf); auto.
    + split; [reflexivity|]. cbn [p_times]. split; [lia|]. rewrite La. replace (Z.max (last + 1) (last_tick m) + 1 - 1) with (Z.max (last + 1) (last_tick m)) by lia. auto.
    + exact (linv_vmap r evs mf b R TE Lf).
    + intros j J1 J2. apply (time_strict r evs mf b j R TE); auto. split; auto. unfold MAX_TICK in ML. lia.
Qed.

(** ** pieces *)
Definition mrel (p pf : pm) (d df : metadata) : Prop :=
  Forall2 (fun x y => fst x = fst y /\ at2 p pf (snd x) (snd y)) (md_keys d) (md_keys df) /\
  Forall2 (fun x y => fst x = fst y /\ at2 p pf (snd x) (snd y)) (md_times d) (md_times df) /\
  Forall2 (fun x y => fst x = fst y /\ at2 p pf (snd x) (snd y)) (md_lyrics d) (md_lyrics df).
Lemma F2_snoc : forall A B (R : A -> B -> Prop) l l' a b, Forall2 R l l' -> R a b -> Forall2 R (l ++ [a]) (l' ++ [b]).
Proof. intros. apply Forall2_app; auto. Qed.
Lemma meta_rel : forall keynum p pf, nthrel p pf -> forall l d df d', mrel p pf d df -> load_metadata keynum p d l = Ok d' ->
  exists df', load_metadata keynum pf df l = Ok df' /\ mrel p pf d' df'.
Proof.
  intros keynum p pf N. induction l as [|[k m] l IH]; intros d df d' M E; [injection E as <-; exists df; auto|]. cbn [load_metadata] in *.
  destruct (meta_step keynum p d (k, m)) as [d1|] eqn:S; [|discriminate]. cbn [bind] in E.
  assert (X : exists df1, meta_step keynum pf df (k, m) = Ok df1 /\ mrel p pf d1 df1).
  { destruct M as [M1 [M2 M3]]. unfold meta_step in *. cbn [fst snd] in *. destruct m as [us|s|n dd|s|].
    - injection S as <-. exists df. split; auto. split; auto.
    - destruct (keynum s) as [kk|]; [|discriminate]. cbn [bind] in *. destruct (py_nth (p_times p) k) as [t|] eqn:Et; [|discriminate]. cbn [bind] in *.
      destruct (N k t Et) as [tf [-> A]]. cbn [bind]. destruct ((0 <=? kk) && (kk <? 24)); [|discriminate]. injection S as <-. eexists. split; [reflexivity|].
      split; [|split]; cbn; auto. apply F2_snoc; auto.
    - destruct (py_nth (p_times p) k) as [t|] eqn:Et; [|discriminate]. cbn [bind] in *.
      destruct (N k t Et) as [tf [-> A]]. cbn [bind]. destruct ((0 <? n) && (0 <? dd)); [|discriminate]. injection S as <-. eexists. split; [reflexivity|].
      split; [|split]; cbn; auto. apply F2_snoc; auto.
    - destruct (py_nth (p_times p) k) as [t|] eqn:Et; [|discriminate]. cbn [bind] in *.
      destruct (N k t Et) as [tf [-> A]]. cbn [bind]. injection S as <-. eexists. split; [reflexivity|].
      split; [|split]; cbn; auto. apply F2_snoc; auto.
    - injection S as <-. exists df. split; auto. split; auto. }
  destruct X as [df1 [-> M']]. cbn [bind]. apply (IH d1); auto.
Qed.
Definition irel (p pf : pm) (i j : sinst) : Prop :=
  si_name i = si_name j /\ si_prog i = si_prog j /\ si_drum i = si_drum j /\
  Forall2 (fun a b => sn_vel a = sn_vel b /\ sn_pitch a = sn_pitch b /\ at2 p pf (sn_start a) (sn_start b) /\ at2 p pf (sn_end a) (sn_end b)) (si_notes i) (si_notes j) /\
  Forall2 (fun a b => snd a = snd b /\ at2 p pf (fst a) (fst b)) (si_bends i) (si_bends j) /\
  Forall2 (fun a b => snd (fst a) = snd (fst b) /\ snd a = snd b /\ at2 p pf (fst (fst a)) (fst (fst b))) (si_ccs i) (si_ccs j).
Lemma bind_ok : forall A B (x : res A) (f : A -> res B) b, bind x f = Ok b -> exists a, x = Ok a /\ f a = Ok b.
Proof. intros A B [a|e] f b H; [eauto|discriminate]. Qed.
Definition nrel (p pf : pm) (a b : snote) : Prop := sn_vel a = sn_vel b /\ sn_pitch a = sn_pitch b /\ at2 p pf (sn_start a) (sn_start b) /\ at2 p pf (sn_end a) (sn_end b).
Definition brel (p pf : pm) (a b : Q * Z) : Prop := snd a = snd b /\ at2 p pf (fst a) (fst b).
Definition crel (p pf : pm) (a b : Q * Z * Z) : Prop := snd (fst a) = snd (fst b) /\ snd a = snd b /\ at2 p pf (fst (fst a)) (fst (fst b)).
Lemma seconds_rel : forall p pf s i si, nthrel p pf -> to_seconds p s i = Ok si -> exists sj, to_seconds pf s i = Ok sj /\ irel p pf si sj.
Proof.
  intros p pf s i si N E. unfold to_seconds in *. cbv zeta in *. set (c := match nth_error (l_cells s) (pi_cell i) with Some c => c | None => mkC [] [] end) in *.
  apply bind_ok in E as [ns [E1 E]]. apply bind_ok in E as [bs [E2 E]]. apply bind_ok in E as [cs [E3 E]]. injection E as <-.
  apply mapM_rel with (S := eq) (R := nrel p pf) (l' := pi_notes i) (g := (fun n => bind (py_nth (p_times pf) (pn_start n)) (fun a => bind (py_nth (p_times pf) (pn_end n)) (fun b =>
          Ok (mkSN (pn_vel n) (pn_pitch n) a b))))) in E1 as [nf [G1 R1]]; [|apply Forall2_same|].
  2:{ intros a a' b _ <- H. apply bind_ok in H as [x [H1 H]]. apply bind_ok in H as [y [H2 H]]. injection H as <-.
    destruct (N _ _ H1) as [xf [-> A1]]. destruct (N _ _ H2) as [yf [-> A2]]. cbn [bind]. eexists. split; [reflexivity|]. unfold nrel. cbn. auto. }
  apply mapM_rel with (S := eq) (R := brel p pf) (l' := c_bends c) (g := (fun b => bind (py_nth (p_times pf) (fst b)) (fun t => Ok (t, snd b)))) in E2 as [bf [G2 R2]]; [|apply Forall2_same|].
  2:{ intros a a' b _ <- H. apply bind_ok in H as [x [H1 H]]. injection H as <-. destruct (N _ _ H1) as [xf [-> A1]]. cbn [bind]. eexists. split; [reflexivity|]. unfold brel. cbn. auto. }
  apply mapM_rel with (S := eq) (R := crel p pf) (l' := c_ccs c) (g := (fun x => bind (py_nth (p_times pf) (fst (fst x))) (fun t => Ok (t, snd (fst x), snd x)))) in E3 as [cf [G3 R3]]; [|apply Forall2_same|].
  2:{ intros a a' b _ <- H. apply bind_ok in H as [x [H1 H]]. injection H as <-. destruct (N _ _ H1) as [xf [-> A1]]. cbn [bind]. eexists. split; [reflexivity|]. unfold crel. cbn. auto. }
  rewrite G1, G2, G3. cbn [bind]. eexists. split; [reflexivity|]. split; [reflexivity|]. split; [reflexivity|]. split; [reflexivity|]. split; [exact R1|]. split; [exact R2|exact R3].
Qed.
Lemma ticks_rel : forall p pf i j w, irel p pf i j -> to_ticks p i = Ok w -> to_ticks_f pf j = Ok w.
Proof.
  intros p pf i j w [A1 [A2 [A3 [A4 [A5 A6]]]]] E. unfold to_ticks, to_ticks_f in *.
  apply bind_ok in E as [ns [E1 E]]. apply bind_ok in E as [bs [E2 E]]. apply bind_ok in E as [cs [E3 E]]. injection E as <-.
  apply mapM_rel with (S := nrel p pf) (R := eq) (l' := si_notes j) (g := (fun n => bind (time_to_tick_f pf (sn_start n)) (fun s => bind (time_to_tick_f pf (sn_end n)) (fun e =>
          Ok (mkP (sn_vel n) (sn_pitch n) s e))))) in E1 as [nf [G1 R1]]; [|exact A4|].
  2:{ intros a a' b _ [V [P [[k [K1 [K2 _]]] [k' [K3 [K4 _]]]]]] H. rewrite K1, K3 in H. cbn [bind] in H. injection H as <-. rewrite K2, K4. cbn [bind]. rewrite V, P. eauto. }
  apply mapM_rel with (S := brel p pf) (R := eq) (l' := si_bends j) (g := (fun b => bind (time_to_tick_f pf (fst b)) (fun k => Ok (k, snd b)))) in E2 as [bf [G2 R2]]; [|exact A5|].
  2:{ intros a a' b _ [V [k [K1 [K2 _]]]] H. rewrite K1 in H. cbn [bind] in H. injection H as <-. rewrite K2. cbn [bind]. rewrite V. eauto. }
  apply mapM_rel with (S := crel p pf) (R := eq) (l' := si_ccs j) (g := (fun c => bind (time_to_tick_f pf (fst (fst c))) (fun k => Ok (k, snd (fst c), snd c)))) in E3 as [cf [G3 R3]]; [|exact A6|].
  2:{ intros a a' b _ [V [P [k [K1 [K2 _]]]]] H. rewrite K1 in H. cbn [bind] in H. injection H as <-. rewrite K2. cbn [bind]. rewrite V, P. eauto. }
  rewrite G1, G2, G3. cbn [bind]. apply Forall2_eq in R1, R2, R3. subst. rewrite A1, A2, A3. reflexivity.
Qed.
Definition fslow (x y : Z * fmsg) : Prop := fst x = fst y /\ (snd x = snd y \/ exists us us', snd x = FMeta (MTempo us) /\ snd y = FMeta (MTempo us') /\ us - 1 <= us' <= us).
Lemma slow_rank : forall a a', slow a a' -> meta_rank (snd a) = meta_rank (snd a').
Proof. intros a a' [_ [->|[us [us' [-> [-> _]]]]]]; reflexivity. Qed.
Lemma slow_lt : forall a a' b b', slow a a' -> slow b b' -> meta_lt a b = meta_lt a' b'.
Proof. intros a a' b b' A B. unfold meta_lt. rewrite (slow_rank _ _ A), (slow_rank _ _ B). destruct A as [-> _], B as [-> _]. reflexivity. Qed.
Lemma slow_refl : forall l, Forall2 slow l l.
Proof. induction l; constructor; auto. split; auto. Qed.
Lemma min_pos : forall a b, Qltb 0 (Qminb a b) = Qltb 0 a && Qltb 0 b.
Proof.
  intros a b. apply Bool.eq_iff_eq_true. rewrite Bool.andb_true_iff, !Qltb_lt. destruct (Qminb_spec a b) as [[H E]|[H E]]; rewrite E; split; intros; lra.
Qed.
Lemma mins_pos : forall l x, Qltb 0 (fold_left Qminb l x) = Qltb 0 x && forallb (Qltb 0) l.
Proof. induction l as [|y l IH]; intros x; cbn [fold_left forallb]; [rewrite Bool.andb_true_r; auto|]. rewrite IH, min_pos, Bool.andb_assoc. auto. Qed.
Lemma default_rel : forall p pf (l l' : list (Z * Z * Q)), Forall2 (fun x y => fst x = fst y /\ at2 p pf (snd x) (snd y)) l l' -> needs_default l = needs_default l'.
Proof.
  intros p pf l l' H. unfold needs_default. destruct H as [|x y l l' [_ [? [_ [_ X]]]] H]; auto. rewrite !mins_pos, X. f_equal.
  induction H as [|a b l l' [_ [? [_ [_ Y]]]] H IH]; auto. cbn [map forallb]. rewrite Y, IH. auto.
Qed.
Lemma view_slow : forall l l', Forall2 slow l l' -> Forall2 fslow (view FMeta l) (view FMeta l').
Proof.
  intros l l' H. induction H as [|x y l l' [A B] H IH]; cbn; constructor; auto. split; auto. cbn [snd].
  destruct B as [->|[us [us' [-> [-> C]]]]]; [auto|right; exists us, us'; auto].
Qed.
Lemma timing_rel : forall p pf d df is js t0, 0 < p_res p -> p_res pf = p_res p -> Forall2 (ps (p_res p)) (p_scales p) (p_scales pf) -> mrel p pf d df ->
  timing_track (mkSong p d is) = Ok t0 -> exists t0f, timing_track_f (mkSong pf df js) = Ok t0f /\ Forall2 fslow t0 t0f.
Proof.
  intros p pf d df is js t0 R E F [M1 [M2 M3]] H. unfold timing_track, timing_track_f in *. cbn [sg_pm sg_meta] in *. cbv zeta in *.
  apply bind_ok in H as [tempi [H1 H]]. apply bind_ok in H as [sigs [H2 H]]. apply bind_ok in H as [keys [H3 H]]. apply bind_ok in H as [lyr [H4 H]].
  destruct (tempo_rel p pf R E F tempi H1) as [tf [G1 R1]]. rewrite G1. cbn [bind].
  assert (G2 : signature_messages_f pf (md_times df) = Ok sigs).
  { unfold signature_messages, signature_messages_f in *. eapply mapM_rel with (R := eq) in H2 as [s' [G2 R2]]; [apply Forall2_eq in R2; rewrite R2; exact G2|exact M2|].
    intros a a' b _ [A [k [K1 [K2 _]]]] X. cbv beta in X. rewrite K1 in X. rewrite K2, <- A. cbn [bind] in *. eauto. }
  assert (G3 : key_messages_f pf (md_keys df) = Ok keys).
  { unfold key_messages, key_messages_f in *. eapply mapM_rel with (R := eq) in H3 as [s' [G3 R3]]; [apply Forall2_eq in R3; rewrite R3; exact G3|exact M1|].
    intros a a' b _ [A [k [K1 [K2 _]]]] X. cbv beta in X. rewrite K1 in X. rewrite K2, <- A. cbn [bind] in *. eauto. }
  assert (G4 : lyric_messages_f pf (md_lyrics df) = Ok lyr).
  { unfold lyric_messages, lyric_messages_f in *. eapply mapM_rel with (R := eq) in H4 as [s' [G4 R4]]; [apply Forall2_eq in R4; rewrite R4; exact G4|exact M3|].
    intros a a' b _ [A [k [K1 [K2 _]]]] X. cbv beta in X. rewrite K1 in X. rewrite K2, <- A. cbn [bind] in *. eauto. }
  rewrite G2, G3, G4. cbn [bind]. rewrite <- (default_rel _ _ _ _ M2).
  set (def := if needs_default (md_times d) then [(0, MTime 4 4)] else []) in *.
  assert (S : Forall2 slow (py_sort meta_lt (def ++ tempi ++ sigs ++ keys ++ lyr)) (py_sort meta_lt (def ++ tf ++ sigs ++ keys ++ lyr))).
  { apply sort_rel; [exact slow_lt|]. apply Forall2_app; [apply slow_refl|]. apply Forall2_app; auto. apply slow_refl. }
  set (ev := py_sort meta_lt (def ++ tempi ++ sigs ++ keys ++ lyr)) in *. set (evf := py_sort meta_lt (def ++ tf ++ sigs ++ keys ++ lyr)) in *.
  pose proof (Forall2_rev' _ _ _ _ _ S) as SR. destruct (rev ev) as [|e re]; [discriminate|]. injection H as <-. inversion SR as [|? e' ? re' X1 X2 X3 X4]; subst.
  eexists. split; [reflexivity|]. apply Forall2_app; [apply view_slow; auto|]. destruct X1 as [-> _]. constructor; [split; auto|constructor].
Qed.
Lemma delta_rel : forall l l', Forall2 fslow l l' -> forall k, Forall2 fslow (f_delta k l) (f_delta k l').
Proof. intros l l' H. induction H as [|[a m] [b n] l l' [A B] H IH]; intros k; cbn [f_delta]; constructor; auto; cbn in *; subst; auto. split; auto. Qed.
Lemma fslow_refl : forall l, Forall2 fslow l l.
Proof. induction l; constructor; auto. split; auto. Qed.
Lemma serialize_rel : forall dc p pf d df is js out, 0 < p_res p -> p_res pf = p_res p -> Forall2 (ps (p_res p)) (p_scales p) (p_scales pf) -> mrel p pf d df ->
  Forall2 (irel p pf) is js -> serialize dc (mkSong p d is) [] = Ok out ->
  exists outf, serialize_f dc (mkSong pf df js) [] = Ok outf /\ Forall2 (Forall2 fslow) out outf.
Proof.
  intros dc p pf d df is js out R E F M I H. unfold serialize, serialize_f in *. cbn [sg_pm sg_insts] in *. apply bind_ok in H as [t0 [H1 H]].
  destruct (timing_rel p pf d df is js t0 R E F M H1) as [t0f [-> S]]. cbn [bind]. destruct ((0 <=? dc) && (dc <? 16)); [|discriminate].
  apply bind_ok in H as [ws [H2 H]]. eapply mapM_rel with (R := eq) (g := to_ticks_f pf) in H2 as [wf [G2 R2]]; [|exact I|].
  2:{ intros a a' b _ A X. exists b. split; auto. apply (ticks_rel p pf a); auto. }
  apply Forall2_eq in R2. subst wf. rewrite G2. cbn [bind]. destruct (forallb messages_fit ws); [|discriminate]. injection H as <-. eexists. split; [reflexivity|].
  cbn [app map]. constructor; [apply delta_rel; auto|]. generalize (map (view FMsg) (write_insts dc 0 ws)). induction l; cbn [map]; constructor; auto. apply fslow_refl.
Qed.
Lemma max_bound : forall l m, py_max l = Ok m -> (exists x, In x l) /\ forall x, In x l -> x <= m.
Proof. intros [|x l] m H; [discriminate|]. injection H as <-. split; [exists x; left; auto|]. apply fold_max_spec. Qed.
Lemma tempi_len : forall l, (List.length (tempi_of l) <= List.length l)%nat.
Proof. induction l as [|[t []] l IH]; cbn [tempi_of List.length]; lia. Qed.
Lemma absolute_len : forall l t, List.length (absolute t l) = List.length l.
Proof. induction l as [|[d m] l IH]; intros t; cbn; auto. Qed.
Lemma absolute_in : forall l t k m, In (k, m) (absolute t l) -> exists d, In (d, m) l.
Proof. intros l t k m H. apply absolute_snd in H. auto. Qed.
Lemma from_file_rel : forall keynum r file p d, 0 < r -> midi_file file -> from_file keynum r (map (view as_meta) file) = Ok (p, d) ->
  exists pf df, from_file_f keynum r (map (view as_meta) file) = Ok (pf, df) /\ 0 < p_res p /\ p_res pf = p_res p /\
    Forall2 (ps (p_res p)) (p_scales p) (p_scales pf) /\ nthrel p pf /\ mrel p pf d df.
Proof.
  intros keynum r file p d R [F1 [F2 F3]] H. unfold from_file, from_file_f in *. cbv zeta in *. destruct file as [|t0 rest]; [discriminate|]. cbn [map] in *.
  set (a0 := absolute 0 (view as_meta t0)) in *.
  apply bind_ok in H as [sc [_ H]]. apply bind_ok in H as [ms [E2 H]]. apply bind_ok in H as [last [E3 H]]. apply bind_ok in H as [p' [E4 H]]. apply bind_ok in H as [d' [E5 H]]. injection H as <- <-.
  assert (P0 : forall e, In e (view as_meta t0) -> 0 <= fst e). { intros e He. apply in_map_iff in He as [[k m] [<- He]]. apply (F1 t0 (k, m)); auto. left; auto. }
  assert (TU : forall k us, In (k, MTempo us) (view as_meta t0) -> 256 <= us < 2 ^ 24).
  { intros k us He. apply in_map_iff in He as [[k' m] [X He]]. injection X as -> X. cbn [snd] in X. destruct m as [m|m]; [cbn in X; subst m|discriminate]. apply (F2 t0 rest k us); auto. }
  assert (TE : tempo_events (tempi_of a0)).
  { unfold a0. rewrite tempi_eq, absolute_events. apply tempo_events_of; auto. intros k us He. specialize (TU k us He). lia. }
  assert (UT : usual_tempi (tempi_of a0)).
  { intros [k us] He. rewrite tempi_eq in He. apply in_tempi in He. apply absolute_in in He as [dd He]. cbn [snd]. apply (TU dd us He). }
  assert (LN : Z.of_nat (List.length (tempi_of a0)) <= 2 ^ 40).
  { pose proof (tempi_len a0) as X. unfold a0 in X at 2. rewrite absolute_len in X. unfold view in X. rewrite map_length in X. specialize (F3 t0 rest eq_refl). lia. }
  cbn [each_max] in E2. fold a0 in E2. apply bind_ok in E2 as [m0 [E6 E2]]. apply bind_ok in E2 as [ms' [E7 E2]]. injection E2 as <-.
  destruct (max_bound _ _ E6) as [[x0 X0] B0]. destruct (max_bound _ _ E3) as [_ B1]. pose proof (B1 m0 (or_introl eq_refl)) as B2.
  assert (L0 : 0 <= last). { pose proof (B0 x0 X0). apply in_map_iff in X0 as [e [<- He]]. pose proof (absolute_ge _ 0 P0 e He). lia. }
  assert (LT : forall e, In e (tempi_of a0) -> fst e <= last).
  { intros [k us] He. rewrite tempi_eq in He. apply in_tempi in He. specialize (B0 k). cbn [fst]. assert (In k (map fst a0)) by (apply in_map_iff; exists (k, MTempo us); auto). specialize (B0 H). lia. }
  destruct (load_both r (tempi_of a0) last p' R TE UT LN L0 LT E4) as [pf [Ef [Rp [Rf [S [N _]]]]]].
  destruct (load_rel r (tempi_of a0) R UT) as [? [mf [_ [El _]]]].
  destruct (meta_rel keynum p' pf N a0 (mkMeta [] [] []) (mkMeta [] [] []) d') as [df [Ed M]]; auto. { repeat split; constructor. }
  exists pf, df. unfold a0 in *. cbn [each_max]. rewrite El, E6, E7. cbn [bind]. rewrite E3. cbn [bind]. rewrite Ef. cbn [bind]. rewrite Ed. cbn [bind]. split; [reflexivity|].
  rewrite Rp, Rf. repeat split; auto; apply M.
Qed.
Lemma song_rel : forall keynum dc r file sg out, 0 < r -> midi_file file -> load_song keynum dc r file = Ok sg -> serialize dc sg [] = Ok out ->
  exists sgf outf, load_song_f keynum dc r file = Ok sgf /\ serialize_f dc sgf [] = Ok outf /\ Forall2 (Forall2 fslow) out outf.
Proof.
  intros keynum dc r file sg out R MF L S. unfold load_song, load_song_f in *. apply bind_ok in L as [[p d] [L1 L]]. cbv zeta in L. apply bind_ok in L as [is [L2 L]]. injection L as <-. cbn [fst snd] in *.
  destruct (from_file_rel keynum r file p d R MF L1) as [pf [df [-> [Rp [Rf [PS [N M]]]]]]]. cbn [bind fst snd]. cbv zeta.
  set (st := load_file dc (map (view as_msg) file)) in *.
  eapply mapM_rel with (S := eq) (R := irel p pf) (g := fun e => to_seconds pf st (snd e)) in L2 as [js [G2 R2]]; [|apply Forall2_same|].
  2:{ intros a a' b _ <- X. apply seconds_rel with (p := p); auto. }
  rewrite G2. cbn [bind]. destruct (serialize_rel dc p pf d df is js out Rp Rf PS M R2 S) as [outf [E F]]. exists (mkSong pf df js), outf. auto.
Qed.
