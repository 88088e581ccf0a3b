(** C222: the tempi of a file do not move its notes. *)
From Coq Require Import QArith Lia.
From Verif Require Import PyBase M_SortedDict M_Ticks M_Load M_Write M_Meta M_Song M_Float S_Float M_SongF S_SongF L_Float L_Float2 L_SongF L_SongF2 L_SongF3 L_SongF4 L_SongF5 L_SongF6.
Open Scope Z_scope.

(** C222: two files that differ in the values of their tempi only, each loaded and saved again: either both
    end with the same exception, or the tracks of instruments are the same, message for message and tick for
    tick - only the timing track may differ. In double precision: *)
Theorem C222_double : forall keynum dc resolution file file', 0 < resolution -> midi_file file -> midi_file file' ->
  Forall2 (Forall2 same_but_tempo) file file' ->
  same_outcome (fun out out' => tl out' = tl out /\ marks (hd [] out') = marks (hd [] out))
    (bind (load_song_f keynum dc resolution file) (fun sg => serialize_f dc sg []))
    (bind (load_song_f keynum dc resolution file') (fun sg => serialize_f dc sg [])).
Proof. exact tempi_free. Qed.
Print Assumptions C222_double.
(** C222: and in exact arithmetic. *)
Theorem C222_exact : forall keynum dc resolution file file', 0 < resolution -> midi_file file -> midi_file file' ->
  Forall2 (Forall2 same_but_tempo) file file' ->
  same_outcome (fun out out' => tl out' = tl out /\ marks (hd [] out') = marks (hd [] out))
    (bind (load_song keynum dc resolution file) (fun sg => serialize dc sg []))
    (bind (load_song keynum dc resolution file') (fun sg => serialize dc sg [])).
Proof.
  intros keynum dc r file file' R MF MF' H. pose proof (song_cross keynum dc r file file' R MF MF' H) as A. pose proof (song_cross keynum dc r file' file' R MF' MF' (but_tempo_refl file')) as B.
  destruct (bind (load_song keynum dc r file) _) as [o|e]; destruct (bind (load_song keynum dc r file') _) as [o1|e1];
  destruct (bind (load_song_f keynum dc r file') _) as [o2|e2]; cbn in *; try contradiction; intuition congruence.
Qed.
Print Assumptions C222_exact.
(** C222: the same for files with other tempo events altogether - more or fewer, at other ticks, in any track -
    as long as every other event is on the same tick and the tracks end on the same ticks. *)
Theorem C222_any_double : forall keynum dc resolution file file', 0 < resolution -> midi_file file -> midi_file file' ->
  Forall2 same_events file file' ->
  same_outcome (fun out out' => tl out' = tl out /\ marks (hd [] out') = marks (hd [] out))
    (bind (load_song_f keynum dc resolution file) (fun sg => serialize_f dc sg []))
    (bind (load_song_f keynum dc resolution file') (fun sg => serialize_f dc sg [])).
Proof. exact tempi_any. Qed.
Print Assumptions C222_any_double.
Theorem C222_any_exact : forall keynum dc resolution file file', 0 < resolution -> midi_file file -> midi_file file' ->
  Forall2 same_events file file' ->
  same_outcome (fun out out' => tl out' = tl out /\ marks (hd [] out') = marks (hd [] out))
    (bind (load_song keynum dc resolution file) (fun sg => serialize dc sg []))
    (bind (load_song keynum dc resolution file') (fun sg => serialize dc sg [])).
Proof.
  intros keynum dc r file file' R MF MF' H. pose proof (song_any keynum dc r file file' R MF MF' H) as A. pose proof (song_any keynum dc r file' file' R MF' MF' (events_refl file')) as B.
  destruct (bind (load_song keynum dc r file) _) as [o|e]; destruct (bind (load_song keynum dc r file') _) as [o1|e1];
  destruct (bind (load_song_f keynum dc r file') _) as [o2|e2]; cbn in *; try contradiction; intuition congruence.
Qed.
Print Assumptions C222_any_exact.
(** C222: the same when the piece is saved onto tracks already there, whose times are read as ticks from the
    start and made relative: those come first and do not depend on the tempi, then the timing track, then the
    tracks of instruments. *)
Lemma append_f : forall dc sg old, serialize_f dc sg old = bind (serialize_f dc sg []) (fun out => Ok (map (f_delta 0) old ++ out)).
Proof.
  intros. unfold serialize_f. destruct (timing_track_f sg) as [t0|e]; cbn [bind]; auto. destruct ((0 <=? dc) && (dc <? 16)); cbn [bind]; auto.
  destruct (mapM (to_ticks_f (sg_pm sg)) (sg_insts sg)) as [ws|e]; cbn [bind]; auto. destruct (forallb messages_fit ws); cbn [bind]; auto.
  now rewrite map_app.
Qed.
Lemma append_q : forall dc sg old, serialize dc sg old = bind (serialize dc sg []) (fun out => Ok (map (f_delta 0) old ++ out)).
Proof.
  intros. unfold serialize. destruct (timing_track sg) as [t0|e]; cbn [bind]; auto. destruct ((0 <=? dc) && (dc <? 16)); cbn [bind]; auto.
  destruct (mapM (to_ticks (sg_pm sg)) (sg_insts sg)) as [ws|e]; cbn [bind]; auto. destruct (forallb messages_fit ws); cbn [bind]; auto.
  now rewrite map_app.
Qed.
Lemma append_outcome : forall (x x' : res (list ftrack)) (pre : list ftrack),
  same_outcome (fun out out' => tl out' = tl out /\ marks (hd [] out') = marks (hd [] out)) x x' ->
  same_outcome (fun out out' => firstn (List.length pre) out = pre /\ firstn (List.length pre) out' = pre /\
      tl (skipn (List.length pre) out') = tl (skipn (List.length pre) out) /\
      marks (hd [] (skipn (List.length pre) out')) = marks (hd [] (skipn (List.length pre) out)))
    (bind x (fun out => Ok (pre ++ out))) (bind x' (fun out => Ok (pre ++ out))).
Proof.
  intros [o|e] [o'|e'] pre H; cbn in *; auto. 
  assert (F : forall o, firstn (List.length pre) (pre ++ o) = pre) by (intros; rewrite firstn_app, Nat.sub_diag, firstn_O, app_nil_r; apply firstn_all).
  assert (K : forall o, skipn (List.length pre) (pre ++ o) = o) by (intros; rewrite skipn_app, Nat.sub_diag, skipn_all; reflexivity).
  rewrite !F, !K. tauto.
Qed.
Lemma bind_assoc : forall A B C (x : res A) (f : A -> res B) (g : B -> res C), bind (bind x f) g = bind x (fun a => bind (f a) g).
Proof. now intros A B C [a|e] f g. Qed.
Lemma bind_ext : forall A B (x : res A) (f g : A -> res B), (forall a, f a = g a) -> bind x f = bind x g.
Proof. intros A B [a|e] f g H; cbn; auto. Qed.
Theorem C222_appended_double : forall keynum dc resolution file file' old, 0 < resolution -> midi_file file -> midi_file file' ->
  Forall2 same_events file file' ->
  same_outcome (fun out out' => let n := List.length old in
      firstn n out = map (f_delta 0) old /\ firstn n out' = map (f_delta 0) old /\
      tl (skipn n out') = tl (skipn n out) /\ marks (hd [] (skipn n out')) = marks (hd [] (skipn n out)))
    (bind (load_song_f keynum dc resolution file) (fun sg => serialize_f dc sg old))
    (bind (load_song_f keynum dc resolution file') (fun sg => serialize_f dc sg old)).
Proof.
  intros keynum dc r file file' old R MF MF' H. pose proof (append_outcome _ _ (map (f_delta 0) old) (C222_any_double keynum dc r file file' R MF MF' H)) as A.
  rewrite !bind_assoc in A. rewrite map_length in A. rewrite !(bind_ext _ _ _ _ _ (fun sg => append_f dc sg old)). exact A.
Qed.
Print Assumptions C222_appended_double.
Theorem C222_appended_exact : forall keynum dc resolution file file' old, 0 < resolution -> midi_file file -> midi_file file' ->
  Forall2 same_events file file' ->
  same_outcome (fun out out' => let n := List.length old in
      firstn n out = map (f_delta 0) old /\ firstn n out' = map (f_delta 0) old /\
      tl (skipn n out') = tl (skipn n out) /\ marks (hd [] (skipn n out')) = marks (hd [] (skipn n out)))
    (bind (load_song keynum dc resolution file) (fun sg => serialize dc sg old))
    (bind (load_song keynum dc resolution file') (fun sg => serialize dc sg old)).
Proof.
  intros keynum dc r file file' old R MF MF' H. pose proof (append_outcome _ _ (map (f_delta 0) old) (C222_any_exact keynum dc r file file' R MF MF' H)) as A.
  rewrite !bind_assoc in A. rewrite map_length in A. rewrite !(bind_ext _ _ _ _ _ (fun sg => append_q dc sg old)). exact A.
Qed.
Print Assumptions C222_appended_exact.
Definition f222 (a b : Z) : list ftrack :=
  [[(0, FMeta (MTempo a)); (5, FMeta (MTempo b)); (0, FMsg MEnd)];
   [(1, FMsg (MOn 0 60 90)); (2, FMsg (MOn 0 60 0)); (4, FMsg MEnd)]].
(** Tempi that merge after a save: 400008 is written back as 400007. *)
Example C222_case : midi_file (f222 400008 400007) /\ midi_file (f222 500000 300) /\ Forall2 (Forall2 same_but_tempo) (f222 400008 400007) (f222 500000 300) /\
  (let run f := bind (load_song_f (fun _ => Err ValueError) 9 480 f) (fun sg => serialize_f 9 sg []) in
   let notes := [(0, FMsg (MProg 0 0)); (1, FMsg (MOn 0 60 90)); (2, FMsg (MOn 0 60 0)); (1, FMsg MEnd)] in
   run (f222 400008 400007) = Ok [[(0, FMeta (MTempo 400007)); (0, FMeta (MTime 4 4)); (5, FMeta (MTempo 400007)); (1, FMsg MEnd)]; notes] /\
   run (f222 400007 400007) = Ok [[(0, FMeta (MTempo 400007)); (0, FMeta (MTime 4 4)); (1, FMsg MEnd)]; notes]).
Proof.
  assert (M : forall a b, 256 <= a < 2 ^ 24 -> 256 <= b < 2 ^ 24 -> midi_file (f222 a b)).
  { intros a b A B. split; [|split].
    - intros t e [<-|[<-|[]]] He; cbn in He; intuition subst; cbn; lia.
    - intros t0 rest d us E. injection E as <- <-. intros He. cbn in He. intuition (try discriminate); match goal with H : (_, _) = (_, _) |- _ => injection H as <- <-; lia end.
    - intros t0 rest E. injection E as <- <-. cbn. lia. }
  split; [apply M; lia|]. split; [apply M; lia|]. split.
  - repeat (apply Forall2_cons || apply Forall2_nil); (split; [reflexivity|cbn [snd]; first [left; reflexivity|right; eauto]]).
  - split; vm_compute; reflexivity.
Qed.
(** A tempo in the middle of a delay, splitting it. *)
Example C222_any_case : Forall2 same_events (f222 400008 400007)
  [[(2, FMeta (MTempo 600000)); (1, FMeta (MTempo 700000)); (2, FMsg MEnd)];
   [(1, FMsg (MOn 0 60 90)); (1, FMeta (MTempo 300)); (1, FMsg (MOn 0 60 0)); (4, FMsg MEnd)]].
Proof. repeat (apply Forall2_cons || apply Forall2_nil); (split; [reflexivity|split; [reflexivity|split; discriminate]]). Qed.
(** A track already there comes first, its second event 10 - 4 ticks after the first. *)
Example C222_appended_case : bind (load_song_f (fun _ => Err ValueError) 9 480 (f222 400008 400007)) (fun sg => serialize_f 9 sg [[(4, FMsg (MProg 2 7)); (10, FMsg MEnd)]]) =
  Ok [[(4, FMsg (MProg 2 7)); (6, FMsg MEnd)]; [(0, FMeta (MTempo 400007)); (0, FMeta (MTime 4 4)); (5, FMeta (MTempo 400007)); (1, FMsg MEnd)];
      [(0, FMsg (MProg 0 0)); (1, FMsg (MOn 0 60 90)); (2, FMsg (MOn 0 60 0)); (1, FMsg MEnd)]].
Proof. vm_compute. reflexivity. Qed.
