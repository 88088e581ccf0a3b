(** Tempi move neither notes nor marks: any other tempi, in double precision. *)
From Coq Require Import QArith Qabs Qround Lia Lqa Sorted Permutation.
From Verif Require Import PyBase L_Base M_SortedDict M_Note L_Note L_Note2 M_Ticks S_Ticks L_Ticks M_Load M_Write M_Meta S_Meta L_Meta M_Song S_Song L_Song L_Song2 L_Song8 M_Float S_Float
  L_Float L_Float2 L_Float3 L_Float4 L_Float5 M_SongF S_SongF L_SongF L_SongF2 L_SongF3 L_SongF4 L_SongF5.
Open Scope Z_scope.

Lemma max_sum : forall l k, (forall e, In e l -> 0 <= fst e) -> fold_left Z.max (map fst (absolute k l)) k = k + fold_right Z.add 0 (map fst l).
Proof.
  induction l as [|[d m] l IH]; intros k H; cbn [absolute map fold_left fold_right fst]; [lia|]. pose proof (H (d, m) (or_introl eq_refl)) as D. cbn in D.
  replace (Z.max k (d + k)) with (d + k) by lia. rewrite IH by (intros e He; apply H; right; auto). lia.
Qed.
Lemma py_max_sum : forall l, (forall e, In e l -> 0 <= fst e) -> py_max (map fst (absolute 0 l)) = match l with [] => Err ValueError | _ => Ok (fold_right Z.add 0 (map fst l)) end.
Proof.
  intros [|[d m] l] H; [reflexivity|]. cbn [absolute map py_max fst fold_right]. f_equal. rewrite max_sum by (intros e He; apply H; right; auto). lia.
Qed.
Lemma view_fst : forall A B (f : A -> B) l, map fst (view f l) = map fst l.
Proof. intros. unfold view. rewrite map_map. reflexivity. Qed.
Lemma view_nonneg : forall A B (f : A -> B) l, (forall e, In e l -> 0 <= fst e) -> forall e, In e (view f l) -> 0 <= fst e.
Proof. intros A B f l H e He. apply in_map_iff in He as [x [<- Hx]]. apply (H x Hx). Qed.
Lemma max_events : forall t t', (forall e, In e t -> 0 <= fst e) -> (forall e, In e t' -> 0 <= fst e) -> same_events t t' ->
  py_max (map fst (absolute 0 (view as_meta t'))) = py_max (map fst (absolute 0 (view as_meta t))).
Proof.
  intros t t' P P' [_ [S N]]. rewrite !py_max_sum by (apply view_nonneg; auto). rewrite !view_fst, S. destruct t as [|a t], t' as [|b t']; cbn [view map]; auto.
  - destruct N as [N _]. discriminate (N eq_refl).
  - destruct N as [_ N]. discriminate (N eq_refl).
Qed.
Lemma each_events : forall f f', (forall t e, In t f -> In e t -> 0 <= fst e) -> (forall t e, In t f' -> In e t -> 0 <= fst e) -> Forall2 same_events f f' ->
  each_max (map (absolute 0) (map (view as_meta) f')) = each_max (map (absolute 0) (map (view as_meta) f)).
Proof.
  intros f f' P P' H. induction H as [|t t' f f' A H IH]; auto. cbn [map each_max]. rewrite IH, (max_events t t'); auto.
  - intros e He. apply (P t); auto. left; auto.
  - intros e He. apply (P' t'); auto. left; auto.
  - intros x e Hx. apply P. right; auto.
  - intros x e Hx. apply P'. right; auto.
Qed.
Definition timed (e : Z * fmsg) : bool := match snd e with FMeta (MTempo _) => false | _ => true end.
Lemma mark_view : forall l, filter mark (view as_meta l) = view as_meta (filter timed l).
Proof.
  unfold view. induction l as [|[k m] l IH]; auto. cbn [map filter fst snd]. unfold mark at 1, timed at 1. cbn [snd]. destruct m as [[]|m]; cbn [as_meta map fst snd]; rewrite ?IH; auto.
Qed.
Lemma marks_events : forall t t', same_events t t' -> filter mark (absolute 0 (view as_meta t')) = filter mark (absolute 0 (view as_meta t)).
Proof. intros t t' [U _]. rewrite !absolute_view, !mark_view. unfold untimed in U. change (view as_meta (filter timed (f_abs 0 t')) = view as_meta (filter timed (f_abs 0 t))). unfold timed. rewrite U. auto. Qed.
Lemma load_marks : forall keynum p l d, load_metadata keynum p d (filter mark l) = load_metadata keynum p d l.
Proof.
  intros keynum p. induction l as [|[k m] l IH]; intros d; auto. cbn [filter load_metadata]. unfold mark at 1. cbn [snd].
  destruct m as [us|s|n dd|s|]; cbn [load_metadata]; try (destruct (meta_step keynum p d _); cbn [bind]; [apply IH|reflexivity]). cbn [meta_step snd bind]. apply IH.
Qed.
Lemma step_timed : forall dc tr l st, fold_left (step dc tr) (view as_msg (filter timed l)) st = fold_left (step dc tr) (view as_msg l) st.
Proof.
  intros dc tr. unfold view. induction l as [|[k m] l IH]; intros st; auto. cbn [filter map fold_left fst snd]. unfold timed at 1. cbn [snd].
  destruct m as [[]|m]; cbn [map fold_left fst snd]; rewrite IH; auto. cbn [as_msg]. destruct st as [[s o] prog]. reflexivity.
Qed.
Lemma track_events : forall dc s tr t t', same_events t t' -> load_track dc s tr (to_abs 0 (view as_msg t')) = load_track dc s tr (to_abs 0 (view as_msg t)).
Proof.
  intros dc s tr t t' [U _]. unfold load_track. rewrite !abs_view. rewrite <- (step_timed dc tr (f_abs 0 t')), <- (step_timed dc tr (f_abs 0 t)). unfold untimed in U. unfold timed. rewrite U. auto.
Qed.
Lemma file_events : forall dc f f', Forall2 same_events f f' -> load_file dc (map (view as_msg) f') = load_file dc (map (view as_msg) f).
Proof.
  intros dc f f' H. unfold load_file. generalize l_empty. generalize 0 at 1 3. induction H as [|t t' f f' A H IH]; intros tr s; auto. cbn [map load_tracks]. rewrite (track_events dc s tr t t' A). apply IH.
Qed.
Lemma from_file_any : forall keynum r file file', 0 < r -> midi_file file -> midi_file file' -> Forall2 same_events file file' ->
  same_outcome (fun a b => xrel (fst a) (fst b) /\ mrel (fst a) (fst b) (snd a) (snd b)) (from_file keynum r (map (view as_meta) file)) (from_file_f keynum r (map (view as_meta) file')).
Proof.
  intros keynum r file file' R MF MF' H. unfold from_file, from_file_f. cbv zeta. destruct H as [|t0 t0' rest rest' H0 H]; [reflexivity|]. cbn [map].
  set (a0 := absolute 0 (view as_meta t0)). set (a0' := absolute 0 (view as_meta t0')).
  destruct (first_facts t0 rest MF) as [P0 [TE [UT LN]]]. destruct (first_facts t0' rest' MF') as [P0' [TE' [UT' LN']]]. fold a0 in TE, UT, LN. fold a0' in TE', UT', LN'.
  destruct MF as [N1 MF0]. destruct MF' as [N1' MF0'].
  assert (MX0 : py_max (map fst a0') = py_max (map fst a0)). { apply max_events; auto. - intros e He. apply (N1 t0); auto. left; auto. - intros e He. apply (N1' t0'); auto. left; auto. }
  assert (MX : each_max (a0' :: map (absolute 0) (map (view as_meta) rest')) = each_max (a0 :: map (absolute 0) (map (view as_meta) rest))).
  { cbn [each_max]. rewrite MX0, (each_events rest rest'); auto. - intros x e Hx. apply N1. right; auto. - intros x e Hx. apply N1'. right; auto. }
  rewrite MX. destruct (load_rel r (tempi_of a0) R UT) as [m [mf [E1 _]]]. rewrite E1. destruct (load_rel r (tempi_of a0') R UT') as [m' [mf' [_ [E2 _]]]]. rewrite E2. cbn [bind].
  destruct (each_max (a0 :: map (absolute 0) (map (view as_meta) rest))) as [ms|] eqn:EM; [|reflexivity]. cbn [bind]. destruct (py_max ms) as [last|] eqn:E3; [|reflexivity]. cbn [bind].
  cbn [each_max] in EM. apply bind_ok in EM as [m0 [E6 EM]]. apply bind_ok in EM as [ms' [E7 EM]]. injection EM as <-.
  destruct (max_bound _ _ E6) as [[x0 X0] B0]. destruct (max_bound _ _ E3) as [_ B1]. pose proof (B1 m0 (or_introl eq_refl)) as B2.
  assert (L0 : 0 <= last). { pose proof (B0 x0 X0). apply in_map_iff in X0 as [e [<- He]]. pose proof (absolute_ge _ 0 P0 e He). lia. }
  assert (LT : forall e, In e (tempi_of a0) -> fst e <= last).
  { intros [k us] He. rewrite tempi_eq in He. apply in_tempi in He. specialize (B0 k). cbn [fst]. assert (X : In k (map fst a0)) by (apply in_map_iff; exists (k, MTempo us); auto). specialize (B0 X). lia. }
  assert (LT' : forall e, In e (tempi_of a0') -> fst e <= last).
  { rewrite <- MX0 in E6. destruct (max_bound _ _ E6) as [_ B0']. intros [k us] He. rewrite tempi_eq in He. apply in_tempi in He. specialize (B0' k). cbn [fst]. assert (X : In k (map fst a0')) by (apply in_map_iff; exists (k, MTempo us); auto). specialize (B0' X). lia. }
  destruct (Z_lt_le_dec last MAX_TICK) as [L|L].
  - destruct (pm_load_ok r (tempi_of a0) last R TE L0 L) as [p [? [E4 _]]]. destruct (pm_load_ok r (tempi_of a0') last R TE' L0 L) as [p' [? [E4' _]]].
    destruct (load_facts r _ last p R TE UT LN L0 LT E4) as [pf [n [nf [_ [Rp [_ [S [V [I [_ [_ [_ [Lp _]]]]]]]]]]]]].
    destruct (load_facts r _ last p' R TE' UT' LN' L0 LT' E4') as [pf' [n' [nf' [Ef' [Rp' [Rf' [S' [V' [I' [Vf' [If' [Lf' [Lp' IN]]]]]]]]]]]]].
    rewrite E4, Ef'. cbn [bind].
    assert (NA : nthall p pf') by (apply nth_all; [lia|apply (nth_rel n nf'); auto; lia]).
    apply so_bind with (R := mrel p pf'); [rewrite <- (load_marks keynum p a0), <- (load_marks keynum pf' a0'); unfold a0'; rewrite (marks_events t0 t0' H0); apply meta_all; auto; repeat split; constructor|]. intros d df M. cbn. split; auto.
    split; [lia|]. split; [lia|]. split; auto. rewrite Rp, Rf'. destruct I as [I _]. destruct I' as [I' _]. split.
    + exists (p_scales pf). split; auto. destruct (ps_nonempty r (p_scales p) _ ltac:(rewrite I; auto) S). auto.
    + exists (p_scales p'). split; auto. destruct (ps_nonempty r (p_scales p') _ ltac:(rewrite I'; auto) S'). auto.
  - rewrite (pm_load_reject r (tempi_of a0) last R TE L). unfold pm_load_f. rewrite E2. cbn [bind]. destruct (Z.ltb_spec MAX_TICK (last + 1)); [reflexivity|lia].
Qed.
Lemma song_any : forall keynum dc r file file', 0 < r -> midi_file file -> midi_file file' -> Forall2 same_events file file' ->
  same_outcome (fun a b => tl b = tl a /\ marks (hd [] b) = marks (hd [] a)) (bind (load_song keynum dc r file) (fun sg => serialize dc sg [])) (bind (load_song_f keynum dc r file') (fun sg => serialize_f dc sg [])).
Proof.
  intros keynum dc r file file' R MF MF' H.
  apply so_bind with (R := fun sg sgf => same_outcome (fun a b => tl b = tl a /\ marks (hd [] b) = marks (hd [] a)) (serialize dc sg []) (serialize_f dc sgf [])); [|auto].
  unfold load_song, load_song_f. rewrite (file_events dc _ _ H). eapply so_bind; [apply from_file_any; auto|]. intros [p d] [pf df] [X M]. cbn [fst snd] in *. cbv zeta.
  apply so_bind with (R := Forall2 (irel p pf)).
  - apply so_mapM with (S := eq); [apply Forall2_same|]. intros a a' <-. apply seconds_all. apply X.
  - intros is js I. cbn. apply serialize_cross; auto.
Qed.
Lemma events_refl : forall f, Forall2 same_events f f.
Proof. induction f; constructor; auto. repeat split; auto. Qed.
Lemma tempi_any : forall keynum dc r file file', 0 < r -> midi_file file -> midi_file file' -> Forall2 same_events file file' ->
  same_outcome (fun a b => tl b = tl a /\ marks (hd [] b) = marks (hd [] a)) (bind (load_song_f keynum dc r file) (fun sg => serialize_f dc sg [])) (bind (load_song_f keynum dc r file') (fun sg => serialize_f dc sg [])).
Proof.
  intros keynum dc r file file' R MF MF' H. pose proof (song_any keynum dc r file file' R MF MF' H) as A. pose proof (song_any keynum dc r file file R MF MF (events_refl file)) as B.
  destruct (bind (load_song keynum dc r file) _) as [o|e]; destruct (bind (load_song_f keynum dc r file) _) as [o1|e1]; cbn in B; try contradiction;
  destruct (bind (load_song_f keynum dc r file') _) as [o2|e2]; cbn in *; try contradiction; intuition congruence.
Qed.
