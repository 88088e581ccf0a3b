(** Properties C38, C40, C81, C82: loading the tracks of a MIDI file into instruments.
    [load_file dc tracks] is the result of loading a file whose tracks hold [tracks] (with the
    relative ticks of the file), [dc] being the drum channel; [notes_of s (program, channel, track)]
    and [ctrl_of s (program, channel, track)] are the notes and the controllers of an instrument,
    [inst_of] the instrument itself, if there is one. *)
From Coq Require Import Sorted Permutation.
From Verif Require Import PyBase M_Load S_Load L_Load L_Load2 L_Load3 L_Load4 L_Load5.
Open Scope Z_scope.

(** C38: turning absolute ticks into relative ones (writing) and back (loading) changes nothing,
    nor does the converse; ascending tracks have relative ticks that are not negative. *)
Theorem C38_ticks : forall evs, to_abs 0 (to_delta 0 evs) = evs /\ to_delta 0 (to_abs 0 evs) = evs /\
  (ascending evs -> (forall e, In e evs -> 0 <= fst e) -> forall d, In d (to_delta 0 evs) -> 0 <= fst d) /\
  ((forall d, In d evs -> 0 <= fst d) -> ascending (to_abs 0 evs) /\ forall e, In e (to_abs 0 evs) -> 0 <= fst e).
Proof.
  intros evs. split; [apply abs_delta|]. split; [apply delta_abs|]. split; [intros; eapply delta_nonneg; eauto|].
  intros H. split; [apply abs_ascending; auto|apply abs_ge; auto].
Qed.
Print Assumptions C38_ticks.
Example C38_case : to_delta 0 [(3, MOn 0 60 9); (3, MOther); (10, MEnd)] = [(3, MOn 0 60 9); (0, MOther); (7, MEnd)].
Proof. reflexivity. Qed.

(** C40: whatever the other tracks hold, the notes of an instrument are, once each, the notes its
    track denotes: every note-on gives one note that lasts until the first release of its pitch at
    another tick, the first note-on (of any channel and pitch) at a later tick, or the end of the
    track, and belongs to the program its channel then has; it is lost only if none of these
    follows.  Notes are listed in ascending order of their ends. *)
Theorem C40_notes : forall dc tracks i tk pr ch,
  nth_error tracks i = Some tk -> (forall d, In d tk -> 0 <= fst d) -> no_double (to_abs 0 tk) ->
  Permutation (notes_of (load_file dc tracks) (pr, ch, Z.of_nat i))
              (of_inst pr ch (track_notes (fun _ => 0) (to_abs 0 tk))) /\
  StronglySorted (fun a b => pn_end a <= pn_end b) (notes_of (load_file dc tracks) (pr, ch, Z.of_nat i)).
Proof. exact C40_file. Qed.
Print Assumptions C40_notes.
(** C40: the instruments are exactly those with at least one note; they carry the program of their
    key and are drums iff their channel is the drum channel. *)
Theorem C40_instruments : forall dc tracks k,
  (notes_of (load_file dc tracks) k <> [] <-> inst_of (load_file dc tracks) k <> None) /\
  (forall ins, inst_of (load_file dc tracks) k = Some ins -> pi_prog ins = fst (fst k) /\ pi_drum ins = (snd (fst k) =? dc)).
Proof.
  intros dc tracks k. pose proof (has_notes_file dc tracks k) as H. unfold notes_of. split.
  - destruct (inst_of (load_file dc tracks) k); [|split; congruence]. destruct (H p eq_refl) as [N _]. split; [discriminate|auto].
  - intros ins E. apply H in E. tauto.
Qed.
Print Assumptions C40_instruments.
(** A chord of two pitches, cut by a note on another channel although neither was released; the
    program of channel 0 changes meanwhile. *)
Definition tk40 : list event :=
  [(0, MOn 0 60 90); (0, MOn 0 64 80); (2, MOff 0 64); (0, MProg 0 5); (3, MOn 1 50 70); (1, MOff 0 60); (4, MEnd)].
Example C40_case : no_double (to_abs 0 tk40) /\
  track_notes (fun _ => 0) (to_abs 0 tk40) = [((5, 0), mkP 90 60 0 5); ((0, 0), mkP 80 64 0 2); ((0, 1), mkP 70 50 5 10)] /\
  map (notes_of (load_file 9 [[(1, MEnd)]; tk40])) [(0, 0, 1); (5, 0, 1); (0, 1, 1); (0, 0, 0)] =
    [[mkP 80 64 0 2]; [mkP 90 60 0 5]; [mkP 70 50 5 10]; []].
Proof.
  split; [|split; reflexivity]. intros l1 l2 l3 t ch n v w E _ _.
  repeat (destruct l1 as [|? l1]; [simpl in E; first [discriminate E|
     injection E as <- <- <- <- E; repeat (destruct l2 as [|? l2]; [simpl in E; discriminate E|simpl in E; injection E as _ E]); destruct l2; discriminate E]
     |simpl in E; injection E as _ E]).
  destruct l1; discriminate E.
Qed.

(** C82: in a loaded track no note sounds on after a later one has started, whatever instruments
    they belong to. *)
Theorem C82_cut : forall dc tracks i tk p1 c1 p2 c2 a b,
  nth_error tracks i = Some tk -> (forall d, In d tk -> 0 <= fst d) -> no_double (to_abs 0 tk) ->
  In a (notes_of (load_file dc tracks) (p1, c1, Z.of_nat i)) -> In b (notes_of (load_file dc tracks) (p2, c2, Z.of_nat i)) ->
  pn_start a <= pn_end a /\ (pn_start a < pn_start b -> pn_end a <= pn_start b).
Proof. exact C82_file. Qed.
Print Assumptions C82_cut.

(** C81: let the events of a track be split into [l1 ++ l2] such that no note of channel [ch]
    starts in [l1].  If [l1] has a controller event of the channel, or if the channel's program
    does not change in [l2], then every instrument of the channel (one for each of its programs
    that has notes) holds exactly all pitch bends and control changes of the channel, in order. *)
Theorem C81_controllers : forall dc tracks i tk ch l1 l2 pr ins,
  nth_error tracks i = Some tk -> to_abs 0 tk = l1 ++ l2 ->
  (forall e, In e l1 -> ~ starts_note ch e) ->
  ((exists e, In e l1 /\ is_ctrl ch e) \/ (forall e, In e l2 -> ~ is_prog ch e)) ->
  inst_of (load_file dc tracks) (pr, ch, Z.of_nat i) = Some ins ->
  ctrl_of (load_file dc tracks) (pr, ch, Z.of_nat i) =
    Some (mkC (channel_bends ch (to_abs 0 tk)) (channel_ccs ch (to_abs 0 tk))).
Proof. exact C81_file. Qed.
Print Assumptions C81_controllers.
(** Two programs of channel 0 share all its controllers, those of channel 1 are apart (it never
    completes a note, so they are lost). *)
Definition tk81 : list event :=
  [(0, MProg 0 3); (0, MCC 0 7 100); (0, MCC 1 7 50); (1, MOn 0 60 90); (2, MOff 0 60); (0, MProg 0 4); (0, MBend 0 12);
   (0, MOn 0 62 90); (5, MCC 0 7 20); (0, MEnd)].
Example C81_case : let s := load_file 9 [tk81] in
  ctrl_of s (3, 0, 0) = Some (mkC [(3, 12)] [(0, 7, 100); (8, 7, 20)]) /\ ctrl_of s (4, 0, 0) = ctrl_of s (3, 0, 0) /\
  inst_of s (0, 1, 0) = None /\ notes_of s (4, 0, 0) = [mkP 90 62 3 8] /\
  (forall e, In e (firstn 2 (to_abs 0 tk81)) -> ~ starts_note 0 e) /\ (exists e, In e (firstn 2 (to_abs 0 tk81)) /\ is_ctrl 0 e).
Proof.
  split; [reflexivity|]. split; [reflexivity|]. split; [reflexivity|]. split; [reflexivity|]. split.
  - intros e [<-|[<-|[]]] [n [v [E _]]]; discriminate E.
  - eexists. split; [right; left; reflexivity|]. right. eexists; eexists; reflexivity.
Qed.

(** C149: the instrument of a program, channel and track carries the track name in force when its
    first note ended: there is an event of the track before which the instrument does not exist and
    with which it does, and its name is the last track name given before that event (or "").  Names
    given later, and names of other tracks, never matter. *)
Theorem C149_instrument_names : forall dc pre tk post pr ch ins,
  let key := (pr, ch, Z.of_nat (List.length pre)) in
  inst_of (load_file dc (pre ++ tk :: post)) key = Some ins ->
  exists l1 e l2, tk = l1 ++ e :: l2 /\
    inst_of (load_file dc (pre ++ [l1])) key = None /\
    inst_of (load_file dc (pre ++ [l1 ++ [e]])) key <> None /\
    pi_name ins = latest_name l1.
Proof. exact names_file. Qed.
Print Assumptions C149_instrument_names.
(** The name of the note's start is replaced before it ends; the last name comes too late. *)
Definition tk149 : list event :=
  [(0, MName "Lead"%string); (0, MOn 0 60 90); (1, MName "Solo"%string); (2, MOff 0 60); (0, MName "Late"%string); (3, MEnd)].
Example C149_case : option_map pi_name (inst_of (load_file 9 [[(0, MName "Other"%string); (1, MEnd)]; tk149]) (0, 0, 1)) = Some "Solo"%string.
Proof. reflexivity. Qed.
