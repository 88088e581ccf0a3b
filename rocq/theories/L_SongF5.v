(** Tempi move neither notes nor marks, in double precision. *)
From Coq Require Import QArith Qabs Qround Lia Lqa Sorted Permutation.
From Verif Require Import PyBase L_Base M_SortedDict M_Note L_Note L_Note2 M_Ticks S_Ticks L_Ticks M_Load M_Write M_Meta S_Meta L_Meta M_Song S_Song L_Song L_Song2 M_Float S_Float
  L_Float L_Float2 L_Float3 L_Float4 L_Float5 M_SongF S_SongF L_SongF L_SongF2 L_SongF3 L_SongF4.
Open Scope Z_scope.

(** ** Sorting by a key and leaving out *)
Lemma insert_filter : forall A (key : A -> Z) f x l, StronglySorted (fun a b => key a <= key b) l ->
  filter f (insert_stable (fun a b => key a <? key b) x l) = if f x then insert_stable (fun a b => key a <? key b) x (filter f l) else filter f l.
Proof.
  intros A key f x. induction l as [|y l IH]; intros S; cbn [insert_stable filter]; [destruct (f x); reflexivity|]. apply StronglySorted_inv in S as [S F].
  destruct (Z.ltb_spec (key y) (key x)) as [L|L].
  - cbn [filter]. rewrite (IH S). destruct (f y), (f x); auto. cbn [insert_stable]. destruct (Z.ltb_spec (key y) (key x)); [auto|lia].
  - cbn [filter]. destruct (f x); auto. symmetry. rewrite Forall_forall in F. apply (insert_hd A key).
    intros z Hz. destruct (f y); [destruct Hz as [<-|Hz]; [auto|]|]; apply filter_In in Hz as [Hz _]; specialize (F z Hz); lia.
Qed.
Lemma sort_filter : forall A (key : A -> Z) f l, filter f (py_sort (fun a b => key a <? key b) l) = py_sort (fun a b => key a <? key b) (filter f l).
Proof.
  intros A key f. induction l as [|x l IH]; [reflexivity|]. change (py_sort (fun a b => key a <? key b) (x :: l)) with (insert_stable (fun a b => key a <? key b) x (py_sort (fun a b => key a <? key b) l)).
  rewrite insert_filter by apply key_sorted. rewrite IH. cbn [filter]. destruct (f x); reflexivity.
Qed.
Definition mark (e : Z * meta) : bool := match snd e with MTempo _ => false | _ => true end.
Lemma metas_filter : forall l, Forall ranked l -> filter mark (py_sort meta_lt l) = py_sort meta_lt (filter mark l).
Proof.
  intros l F. rewrite (sort_metas l F), sort_filter. symmetry. apply sort_metas. rewrite Forall_forall in *. intros x X. apply filter_In in X as [X _]. auto.
Qed.
Lemma mapM_all : forall A B (f : A -> res B) (P : B -> Prop) l o, (forall a b, f a = Ok b -> P b) -> mapM f l = Ok o -> Forall P o.
Proof.
  intros A B f P. induction l as [|a l IH]; intros o H E; [injection E as <-; constructor|]. cbn [mapM] in E. apply bind_ok in E as [b [E1 E]]. apply bind_ok in E as [bs [E2 E]]. injection E as <-. constructor; eauto.
Qed.
Definition tempo_only (e : Z * meta) : Prop := exists us, snd e = MTempo us.
Lemma no_marks : forall l, Forall tempo_only l -> filter mark l = [].
Proof. intros l F. induction F as [|e l [us E] F IH]; auto. cbn [filter]. unfold mark at 1. rewrite E. auto. Qed.
Lemma tempo_ranked : forall l, Forall tempo_only l -> Forall ranked l.
Proof. intros l F. eapply Forall_impl; [|exact F]. intros e [us E]. unfold ranked. rewrite E. discriminate. Qed.
Lemma marks_written : forall evs k, marks (f_delta 0 (view FMeta evs ++ [(k, FMsg MEnd)])) = view FMeta (filter (fun e => mark e) evs).
Proof.
  intros evs k. unfold marks. rewrite f_abs_delta, filter_app. cbn [filter snd]. rewrite app_nil_r. induction evs as [|[t m] evs IH]; auto.
  unfold view in *. cbn [map filter fst snd mark]. destruct m; cbn [map fst snd]; rewrite ?IH; auto.
Qed.
Lemma sorted_marks : forall a b c, Forall ranked a -> Forall tempo_only b -> Forall ranked c -> filter mark (py_sort meta_lt (a ++ b ++ c)) = py_sort meta_lt (filter mark (a ++ c)).
Proof.
  intros a b c A B C. rewrite metas_filter by (repeat (apply Forall_app; split); auto; apply tempo_ranked; auto). rewrite !filter_app, (no_marks b B). auto.
Qed.
Lemma timing_cross : forall p pf d df is js, xrel p pf -> mrel p pf d df ->
  same_outcome (fun a b => marks (f_delta 0 b) = marks (f_delta 0 a)) (timing_track (mkSong p d is)) (timing_track_f (mkSong pf df js)).
Proof.
  intros p pf d df is js [R [Rf [_ [[x [X NX]] [y [Y NY]]]]]] [M1 [M2 M3]]. unfold timing_track, timing_track_f. cbn [sg_pm sg_meta]. cbv zeta.
  destruct (tempo_ok_e (p_res p) (p_scales p) x R X NX) as [tempi [E1 N1]]. destruct (tempo_ok_f pf y Rf Y NY) as [tf [E2 N2]].
  unfold tempo_messages at 1. rewrite E1, E2. cbn [bind].
  assert (G2 : signature_messages_f pf (md_times df) = signature_messages p (md_times d)).
  { unfold signature_messages, signature_messages_f. apply (so_mapM_eq _ _ _ _ _ _ _ _ M2). intros a a' [A K]. rewrite (at2_eq _ _ _ _ K), A. auto. }
  assert (G3 : key_messages_f pf (md_keys df) = key_messages p (md_keys d)).
  { unfold key_messages, key_messages_f. apply (so_mapM_eq _ _ _ _ _ _ _ _ M1). intros a a' [A K]. rewrite (at2_eq _ _ _ _ K), A. auto. }
  assert (G4 : lyric_messages_f pf (md_lyrics df) = lyric_messages p (md_lyrics d)).
  { unfold lyric_messages, lyric_messages_f. apply (so_mapM_eq _ _ _ _ _ _ _ _ M3). intros a a' [A K]. rewrite (at2_eq _ _ _ _ K), A. auto. }
  rewrite G2, G3, G4.
  destruct (signature_messages p (md_times d)) as [sigs|] eqn:H2; [|reflexivity]. destruct (key_messages p (md_keys d)) as [keys|] eqn:H3; [|reflexivity].
  destruct (lyric_messages p (md_lyrics d)) as [lyr|] eqn:H4; [|reflexivity]. cbn [bind].
  assert (NE : forall a b c : list (Z * meta), b <> [] -> rev (py_sort meta_lt (a ++ b ++ c)) <> []).
  { intros a b c B E. apply (f_equal (@List.length _)) in E. rewrite rev_length in E. rewrite <- (Permutation_length (py_sort_perm meta_lt (a ++ b ++ c))) in E. rewrite !app_length in E. destruct b; [congruence|cbn in E; lia]. }
  assert (TE : Forall tempo_only tempi).
  { apply (mapM_all _ _ _ _ _ _) with (2 := E1). intros e b H. destruct (tempo_fits (snd e)); [|discriminate]. injection H as <-. exists (snd e). reflexivity. }
  assert (TF : Forall tempo_only tf).
  { unfold tempo_messages_f in E2. apply (mapM_all _ _ _ _ _ _) with (2 := E2). intros e b H. destruct (tempo_fits (snd e)); [|discriminate]. injection H as <-. exists (snd e). reflexivity. }
  assert (RS : Forall ranked (sigs ++ keys ++ lyr)).
  { repeat (apply Forall_app; split).
    - unfold signature_messages in H2. apply (mapM_all _ _ _ _ _ _) with (2 := H2). intros e b H. apply bind_ok in H as [k [_ H]]. destruct (signature_fits _ _); [|discriminate]. injection H as <-. discriminate.
    - unfold key_messages in H3. apply (mapM_all _ _ _ _ _ _) with (2 := H3). intros e b H. apply bind_ok in H as [k [_ H]]. apply bind_ok in H as [s [_ H]]. injection H as <-. discriminate.
    - unfold lyric_messages in H4. apply (mapM_all _ _ _ _ _ _) with (2 := H4). intros e b H. apply bind_ok in H as [k [_ H]]. injection H as <-. discriminate. }
  rewrite <- (default_rel _ _ _ _ M2). set (def := if needs_default (md_times d) then [(0, MTime 4 4)] else []) in *.
  assert (RD : Forall ranked def) by (unfold def; destruct (needs_default (md_times d)); repeat constructor; discriminate).
  match goal with |- same_outcome _ (match ?l with _ => _ end) _ => destruct l eqn:Q1 end; [exfalso; apply NE in Q1; auto|].
  match goal with |- same_outcome _ _ (match ?l with _ => _ end) => destruct l eqn:Q2 end; [exfalso; apply NE in Q2; auto|].
  cbn [same_outcome]. rewrite !marks_written. f_equal. change (fun e => mark e) with mark. rewrite !sorted_marks by auto. reflexivity.
Qed.
Lemma serialize_cross : forall dc p pf d df is js, xrel p pf -> mrel p pf d df -> Forall2 (irel p pf) is js ->
  same_outcome (fun a b => tl b = tl a /\ marks (hd [] b) = marks (hd [] a)) (serialize dc (mkSong p d is) []) (serialize_f dc (mkSong pf df js) []).
Proof.
  intros dc p pf d df is js X M I. unfold serialize, serialize_f. cbn [sg_pm sg_insts].
  apply so_bind with (R := fun a b => marks (f_delta 0 b) = marks (f_delta 0 a)); [apply timing_cross; auto|]. intros t0 t0f TM. destruct ((0 <=? dc) && (dc <? 16)); [|reflexivity].
  assert (G : mapM (to_ticks_f pf) js = mapM (to_ticks p) is) by (apply (so_mapM_eq _ _ _ _ _ _ _ _ I); intros; apply ticks_all; auto).
  rewrite G. apply so_bind with (R := eq); [apply so_eq|]. intros ws ? <-. destruct (forallb messages_fit ws); [split; [reflexivity|exact TM]|reflexivity].
Qed.
Lemma views_msg : forall f f', Forall2 (Forall2 same_but_tempo) f f' -> map (view as_msg) f' = map (view as_msg) f.
Proof. intros f f' H. induction H as [|a b f f' A H IH]; auto. cbn [map]. rewrite IH, (view_msg _ _ A). auto. Qed.
Lemma song_cross : forall keynum dc r file file', 0 < r -> midi_file file -> midi_file file' -> Forall2 (Forall2 same_but_tempo) file file' ->
  same_outcome (fun a b => tl b = tl a /\ marks (hd [] b) = marks (hd [] a)) (bind (load_song keynum dc r file) (fun sg => serialize dc sg [])) (bind (load_song_f keynum dc r file') (fun sg => serialize_f dc sg [])).
Proof.
  intros keynum dc r file file' R MF MF' H.
  apply so_bind with (R := fun sg sgf => same_outcome (fun a b => tl b = tl a /\ marks (hd [] b) = marks (hd [] a)) (serialize dc sg []) (serialize_f dc sgf [])); [|auto].
  unfold load_song, load_song_f. rewrite (views_msg _ _ H). eapply so_bind; [apply from_file_cross; auto|]. intros [p d] [pf df] [X M]. cbn [fst snd] in *. cbv zeta.
  apply so_bind with (R := Forall2 (irel p pf)).
  - apply so_mapM with (S := eq); [apply Forall2_same|]. intros a a' <-. apply seconds_all. apply X.
  - intros is js I. cbn. apply serialize_cross; auto.
Qed.
Lemma but_tempo_refl : forall f, Forall2 (Forall2 same_but_tempo) f f.
Proof. induction f as [|t f IH]; constructor; auto. clear. induction t; constructor; auto. split; auto. Qed.
Lemma tempi_free : forall keynum dc r file file', 0 < r -> midi_file file -> midi_file file' -> Forall2 (Forall2 same_but_tempo) file file' ->
  same_outcome (fun a b => tl b = tl a /\ marks (hd [] b) = marks (hd [] a)) (bind (load_song_f keynum dc r file) (fun sg => serialize_f dc sg [])) (bind (load_song_f keynum dc r file') (fun sg => serialize_f dc sg [])).
Proof.
  intros keynum dc r file file' R MF MF' H. pose proof (song_cross keynum dc r file file' R MF MF' H) as A. pose proof (song_cross keynum dc r file file R MF MF (but_tempo_refl file)) as B.
  destruct (bind (load_song keynum dc r file) _) as [o|e]; destruct (bind (load_song_f keynum dc r file) _) as [o1|e1]; cbn in B; try contradiction;
  destruct (bind (load_song_f keynum dc r file') _) as [o2|e2]; cbn in *; try contradiction; intuition congruence.
Qed.
