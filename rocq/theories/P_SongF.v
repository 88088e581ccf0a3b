(** C221: loading and saving a whole piece in double precision. *)
From Coq Require Import QArith Lia.
From Verif Require Import PyBase M_Ticks M_Load M_Write M_Meta M_Song M_Float S_Float M_SongF S_SongF L_Float L_Float2 L_SongF L_SongF2 L_SongF3.
Open Scope Z_scope.

(** C221: a MIDI file loaded and saved in double precision gives what exact arithmetic gives (C164): the same
    tracks with the same messages after the same delays, note for note, except that a tempo may be one
    microsecond per quarter note less. *)
Theorem C221_saved : forall keynum dc resolution file sg out, 0 < resolution -> midi_file file ->
  load_song keynum dc resolution file = Ok sg -> serialize dc sg [] = Ok out ->
  exists sgf outf, load_song_f keynum dc resolution file = Ok sgf /\ serialize_f dc sgf [] = Ok outf /\
    Forall2 (Forall2 same_message) out outf.
Proof.
  intros keynum dc r file sg out R MF L S. destruct (song_rel keynum dc r file sg out R MF L S) as [sgf [outf [E1 [E2 F]]]].
  exists sgf, outf. split; auto. split; auto. clear -F. induction F as [|a b l l' A F IH]; constructor; auto. clear -A.
  induction A as [|x y l l' [H1 H2] A IH]; constructor; auto. split; auto. destruct H2 as [->|H2]; auto.
Qed.
Print Assumptions C221_saved.
(** C221: no exception comes or goes: loading a file ends in double precision as it does in exact arithmetic,
    with a piece or with the same exception, and so does serializing that piece, with any drum channel, onto
    any tracks already there. *)
Theorem C221_outcome : forall keynum dc resolution file, 0 < resolution -> midi_file file ->
  same_outcome (fun sg sgf => forall dc' old, same_outcome (Forall2 (Forall2 same_message)) (serialize dc' sg old) (serialize_f dc' sgf old))
    (load_song keynum dc resolution file) (load_song_f keynum dc resolution file).
Proof.
  intros keynum dc r file R MF. eapply so_impl; [|apply (song_all keynum dc r file R MF)]. cbv beta. intros sg sgf H dc' old. eapply so_impl; [|apply H].
  intros out outf F. clear -F. induction F as [|a b l l' A F IH]; constructor; auto. clear -A.
  induction A as [|x y l l' [H1 H2] A IH]; constructor; auto. split; auto. destruct H2 as [->|H2]; auto.
Qed.
Print Assumptions C221_outcome.
Definition f221 : list ftrack :=
  [[(0, FMeta (MTempo 400147)); (0, FMeta (MTime 3 4)); (3, FMeta (MLyric "la")); (2, FMeta (MTempo 500000)); (0, FMsg MEnd)];
   [(1, FMsg (MOn 0 60 90)); (2, FMsg (MOn 0 60 0)); (0, FMsg (MOn 0 62 80)); (3, FMsg (MOn 0 62 0)); (4, FMsg MEnd)]].
(** The first tempo loses a microsecond. *)
Example C221_case : midi_file f221 /\
  bind (load_song (fun _ => Err ValueError) 9 480 f221) (fun sg => serialize 9 sg []) = Ok
  [[(0, FMeta (MTempo 400147)); (0, FMeta (MTime 3 4)); (3, FMeta (MLyric "la")); (2, FMeta (MTempo 500000)); (1, FMsg MEnd)];
   [(0, FMsg (MProg 0 0)); (1, FMsg (MOn 0 60 90)); (2, FMsg (MOn 0 60 0)); (0, FMsg (MOn 0 62 80)); (3, FMsg (MOn 0 62 0)); (1, FMsg MEnd)]] /\
  bind (load_song_f (fun _ => Err ValueError) 9 480 f221) (fun sg => serialize_f 9 sg []) = Ok
  [[(0, FMeta (MTempo 400146)); (0, FMeta (MTime 3 4)); (3, FMeta (MLyric "la")); (2, FMeta (MTempo 500000)); (1, FMsg MEnd)];
   [(0, FMsg (MProg 0 0)); (1, FMsg (MOn 0 60 90)); (2, FMsg (MOn 0 60 0)); (0, FMsg (MOn 0 62 80)); (3, FMsg (MOn 0 62 0)); (1, FMsg MEnd)]].
Proof.
  split; [split; [|split]|].
  - intros t e [<-|[<-|[]]] He; cbn in He; intuition subst; cbn; lia.
  - intros t0 rest d us E. injection E as <- <-. intros He. cbn in He. intuition (try discriminate); match goal with H : (_, _) = (_, _) |- _ => injection H as <- <-; lia end.
  - intros t0 rest E. injection E as <- <-. cbn. lia.
  - split; vm_compute; reflexivity.
Qed.
(** A pitch bend out of mido's range and an empty track. *)
Example C221_outcome_case : midi_file [[(0, FMsg MEnd)]; [(1, FMsg (MOn 0 60 90)); (0, FMsg (MBend 0 9000)); (2, FMsg (MOn 0 60 0))]] /\
  bind (load_song_f (fun _ => Err ValueError) 9 480 [[(0, FMsg MEnd)]; [(1, FMsg (MOn 0 60 90)); (0, FMsg (MBend 0 9000)); (2, FMsg (MOn 0 60 0))]]) (fun sg => serialize_f 9 sg []) = Err ValueError /\
  load_song_f (fun _ => Err ValueError) 9 480 [[(0, FMsg MEnd)]; []] = Err ValueError.
Proof.
  split; [split; [|split]|split; vm_compute; reflexivity].
  - intros t e [<-|[<-|[]]] He; cbn in He; intuition subst; cbn; lia.
  - intros t0 rest d us E. injection E as <- <-. intros He. cbn in He. intuition discriminate.
  - intros t0 rest E. injection E as <- <-. cbn. lia.
Qed.
