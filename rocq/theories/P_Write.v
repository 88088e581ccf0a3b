(** Properties C41, C83, C84, C85: writing MIDI files.
    [write_track ch i] is the track (absolute ticks) written for instrument [i] on channel [ch],
    [write_file dc timing l] the file (relative ticks) for the instruments [l] behind the timing
    track, [dc] being the drum channel. *)
From Coq Require Import Sorted Permutation Lia.
From Verif Require Import PyBase L_Sort M_Ticks S_Ticks M_Load S_Load M_Write S_Write L_Write L_Write2 L_Write3 L_Write4.
Open Scope Z_scope.

(** C41: a written track is the name (if any), then exactly the events of the instrument in the
    documented order, then the end of the track one tick after the last event. *)
Theorem C41_order : forall ch i, midi_inst i -> exists evs last,
  write_track ch i = (if String.eqb (w_name i) EmptyString then [] else [(0, MName (w_name i))]) ++ evs ++ [(last + 1, MEnd)] /\
  StronglySorted in_order evs /\ Permutation evs (inst_events ch i) /\
  (forall e, In e evs -> fst e <= last) /\ (exists e, In e evs /\ fst e = last).
Proof.
  intros ch i M. destruct (track_shape ch i M) as [last [E [B X]]]. exists (body ch i), last. split; [exact E|].
  destruct (inst_vev ch i M) as [V _]. destruct (sort_order _ V) as [S P]. split; [exact S|]. split; [symmetry; exact P|].
  split; [intros e He; apply B; exact He|exact X].
Qed.
Print Assumptions C41_order.
(** C41: so a release never follows a strike of the same pitch at the same tick. *)
Theorem C41_release_first : forall ch i l1 l2 l3 t n v, midi_inst i ->
  write_track ch i = l1 ++ (t, MOn ch n v) :: l2 ++ (t, MOn ch n 0) :: l3 -> v = 0.
Proof.
  intros ch i l1 l2 l3 t n v M E. destruct (track_shape ch i M) as [last [E' [B X]]]. destruct (inst_vev ch i M) as [V _]. destruct (sort_order _ V) as [S P].
  fold (body ch i) in S, P. assert (VB : Forall vev (body ch i)) by (eapply Permutation.Permutation_Forall; eauto).
  rewrite E' in E. unfold name_ev in E.
  assert (exists a b c, body ch i = a ++ (t, MOn ch n v) :: b ++ (t, MOn ch n 0) :: c) as [a [b [c Eb]]].
  { destruct (exists_last (l := l3)) as [l3' [z Ez]].
    { intros ->. rewrite app_assoc in E. change (l1 ++ (t, MOn ch n v) :: l2 ++ [(t, MOn ch n 0)]) with (l1 ++ ((t, MOn ch n v) :: l2) ++ [(t, MOn ch n 0)]) in E.
      rewrite app_assoc in E. apply app_inj_tail in E as [_ E]. discriminate E. }
    rewrite Ez in E. rewrite app_assoc in E.
    replace (l1 ++ (t, MOn ch n v) :: l2 ++ (t, MOn ch n 0) :: l3' ++ [z]) with ((l1 ++ (t, MOn ch n v) :: l2 ++ (t, MOn ch n 0) :: l3') ++ [z]) in E
      by (rewrite <- !app_assoc; cbn [app]; rewrite <- !app_assoc; reflexivity).
    apply app_inj_tail in E as [E _]. destruct (String.eqb _ _); cbn [app] in E.
    - eauto.
    - destruct l1 as [|x l1]; [discriminate E|]. injection E as _ E. eauto. }
  rewrite Eb in S, VB. apply SS_app_iff in S as [_ [S _]]. apply StronglySorted_inv in S as [_ S]. rewrite Forall_forall in S, VB.
  specialize (S (t, MOn ch n 0)). assert (O : in_order (t, MOn ch n v) (t, MOn ch n 0)) by (apply S; apply in_or_app; right; left; reflexivity).
  specialize (VB (t, MOn ch n v)). assert (W : vev (t, MOn ch n v)) by (apply VB; apply in_or_app; right; left; reflexivity).
  unfold in_order in O; unfold vev in W; simpl in O, W. lia.
Qed.
Print Assumptions C41_release_first.
Definition i41 : winst := mkW "Piano" 4 false [mkP 90 60 0 4; mkP 80 60 4 6; mkP 80 64 0 3] [(4, -100)] [(4, 7, 99); (0, 7, 100)].
Example C41_case : midi_inst i41 /\ write_track 2 i41 =
  [(0, MName "Piano"); (0, MProg 2 4); (0, MCC 2 7 100); (0, MOn 2 60 90); (0, MOn 2 64 80); (3, MOn 2 64 0); (4, MBend 2 (-100)); (4, MCC 2 7 99);
   (4, MOn 2 60 0); (4, MOn 2 60 80); (6, MOn 2 60 0); (7, MEnd)].
Proof.
  split; [|reflexivity]. split; [|split]; simpl; intros x H; repeat (destruct H as [<-|H]; [unfold midi_note; simpl; lia|]); destruct H.
Qed.

(** C83: an instrument whose notes can be told apart survives writing and loading: its track holds
    one instrument (none if it has no notes) with the same program and drum flag, exactly its
    notes, and its bends and control changes in order of time. *)
Theorem C83_round_trip : forall dc timing l tracks n i,
  write_file dc timing l = Ok tracks -> nth_error l n = Some i -> midi_inst i -> sequential (w_notes i) ->
  let s := load_file dc tracks in let ch := channel_of dc n i in let tr := Z.of_nat (S n) in
  Permutation (notes_of s (w_prog i, ch, tr)) (w_notes i) /\
  (forall p c, (p, c) <> (w_prog i, ch) -> inst_of s (p, c, tr) = None) /\
  (w_notes i <> [] -> exists ins bs cs, inst_of s (w_prog i, ch, tr) = Some ins /\ pi_prog ins = w_prog i /\ pi_drum ins = w_drum i /\
     ctrl_of s (w_prog i, ch, tr) = Some (mkC bs cs) /\
     Permutation bs (w_bends i) /\ StronglySorted (fun a b => fst a <= fst b) bs /\
     Permutation cs (w_ccs i) /\ StronglySorted (fun a b => fst (fst a) <= fst (fst b)) cs).
Proof. exact roundtrip. Qed.
Print Assumptions C83_round_trip.
Example C83_case : sequential (w_notes i41) /\ (exists tracks, write_file 9 [(1, MEnd)] [i41] = Ok tracks /\
  notes_of (load_file 9 tracks) (4, 0, 1) = [mkP 80 64 0 3; mkP 90 60 0 4; mkP 80 60 4 6]).
Proof.
  split; [|eexists; split; [reflexivity|reflexivity]].
  split; [|split].
  - simpl. intros n H. repeat (destruct H as [<-|H]; [simpl; lia|]). destruct H.
  - intros l1 a l2 b l3 E. assert (L := f_equal (@List.length _) E). rewrite app_length in L. simpl in L. rewrite app_length in L. simpl in L.
    destruct l1 as [|? [|? [|? l1]]]; simpl in L, E; try lia.
    + destruct l2 as [|? [|? l2]]; simpl in L, E; try lia; injection E as <- <- ?; subst; simpl; try lia.
    + destruct l2 as [|? l2]; simpl in L, E; try lia. injection E as _ <- <- _. simpl. lia.
  - simpl. intros a b Ha Hb. repeat (destruct Ha as [<-|Ha]; [repeat (destruct Hb as [<-|Hb]; [simpl; lia|]); destruct Hb|]). destruct Ha.
Qed.

(** C84: the tempo events written for a loaded file put the same tempo in force at every tick as
    the events it was loaded from, in exact arithmetic (doubles: C158). *)
Theorem C84_tempo_round_trip : forall r evs m, 0 < r -> tempo_events evs -> load_tempo r evs = Ok m ->
  tempo_events (write_tempo r m) /\ forall j, 0 <= j -> at_tick (write_tempo r m) j 500000 = at_tick evs j 500000.
Proof. exact tempo_round. Qed.
Print Assumptions C84_tempo_round_trip.
Example C84_case : exists m, load_tempo 4 [(2, 300001); (4, 700000); (9, 700000)] = Ok m /\ write_tempo 4 m = [(0, 500000); (2, 300001); (4, 700000)].
Proof. eexists; split; vm_compute; reflexivity. Qed.

(** C85: only drums are written on the drum channel, and up to 15 consecutive other instruments get
    different channels; a drum channel outside 0..15 is rejected with ValueError. *)
Theorem C85_channels : forall dc, 0 <= dc < 16 ->
  (forall n i, (channel_of dc n i = dc <-> w_drum i = true) /\ 0 <= channel_of dc n i < 16) /\
  (forall a b x y, (a < b < a + 15)%nat -> w_drum x = false -> w_drum y = false -> channel_of dc a x <> channel_of dc b y).
Proof.
  intros dc H. split; [|intros; apply channel_distinct; auto]. intros n i. destruct (channel_drum dc n i H) as [A B]. split; auto. rewrite <- A.
  rewrite Z.eqb_eq. tauto.
Qed.
Print Assumptions C85_channels.
(** C85 (errors). *)
Theorem C85_reject : forall dc timing l, write_file dc timing l = Err ValueError <-> ~ 0 <= dc < 16.
Proof.
  intros. unfold write_file. destruct (Z.leb_spec 0 dc), (Z.ltb_spec dc 16); cbn [andb]; split; intros; try discriminate; try reflexivity; try lia.
Qed.
Print Assumptions C85_reject.
Example C85_case : map (fun n => channel_of 9 n (mkW "" 0 false [] [] [])) [0; 8; 9; 14; 15; 24]%nat = [0; 8; 10; 15; 0; 10].
Proof. reflexivity. Qed.
