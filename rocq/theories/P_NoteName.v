(** Property C211: names of notes.  [note_to_midi name = None] is librosa's ParameterError. *)
From Coq Require Import QArith Lqa Lia ZArith List.
From Verif Require Import PyBase M_Note M_NoteName S_Note S_Graph S_NoteName L_Base L_Note L_Note2 L_Chord L_NoteName P_Note.
Import ListNotations.
Open Scope Z_scope.
Open Scope list_scope.

(** C211: the pitch number of a name, for every string. *)
Theorem C211_spelled : forall name p, note_to_midi name = Some p <-> spelled name p.
Proof. exact spelled_iff. Qed.
Print Assumptions C211_spelled.
(** C-1 is 0, C4 is 60, B3 with a sharp is 60, eb with a natural 63; C without an octave is 12; A4+50 is 70 (69.5 to the
    even number), A4+49 is 69, H4 and C4.5 are no names. *)
Example C211_case_spelled : note_to_midi [67; 45; 49] = Some 0 /\ note_to_midi [67; 52] = Some 60 /\ note_to_midi [66; 35; 51] = Some 60 /\
  note_to_midi [101; 98; 9838; 52] = Some 63 /\ note_to_midi [67] = Some 12 /\ note_to_midi [65; 52; 43; 53; 48] = Some 70 /\
  note_to_midi [65; 52; 43; 52; 57] = Some 69 /\ note_to_midi [72; 52] = None /\ note_to_midi [67; 52; 46; 53] = None.
Proof. repeat split. Qed.

(** C211: the name of a pitch is read back as that pitch. *)
Theorem C211_roundtrip : forall p, 0 <= p -> note_to_midi (midi_to_note p) = Some p.
Proof. intros p H. apply spelled_iff, name_spelled; auto. Qed.
Print Assumptions C211_roundtrip.
Example C211_case_roundtrip : midi_to_note 61 = [67; 9839; 52] /\ midi_to_note 0 = [67; 45; 49] /\ midi_to_note 127 = [71; 57].
Proof. repeat split. Qed.
(** C211: different pitches have different names, so that two label sets of names are equal exactly when the two sets of
    pitches are. *)
Theorem C211_injective : forall p q, 0 <= p -> 0 <= q -> midi_to_note p = midi_to_note q -> p = q.
Proof. intros p q P Q0 E. pose proof (C211_roundtrip p P) as A. rewrite E, (C211_roundtrip q Q0) in A. congruence. Qed.
Print Assumptions C211_injective.
(** C211: labels. *)
Theorem C211_labels : forall ps qs, Forall (fun p => 0 <= p) ps -> Forall (fun q => 0 <= q) qs ->
  ((forall s, In s (map midi_to_note ps) <-> In s (map midi_to_note qs)) <-> (forall p, In p ps <-> In p qs)).
Proof.
  assert (X : forall ps qs, Forall (fun p => 0 <= p) ps -> Forall (fun q => 0 <= q) qs ->
    (forall s, In s (map midi_to_note ps) -> In s (map midi_to_note qs)) -> forall p, In p ps -> In p qs).
  { intros ps qs Fp Fq H p I. pose proof (proj1 (Forall_forall _ _) Fp p I) as P. specialize (H (midi_to_note p) (in_map midi_to_note ps p I)).
    apply in_map_iff in H as [q [E J]]. pose proof (proj1 (Forall_forall _ _) Fq q J) as Q0. rewrite <- (C211_injective q p Q0 P E). exact J. }
  intros ps qs Fp Fq. split.
  - intros H p. split; apply X; auto; intros s; apply H.
  - intros H s. split; intros I; apply in_map_iff in I as [p [<- J]]; apply in_map; apply H; exact J.
Qed.
Print Assumptions C211_labels.

(** C211: from_name raises ParameterError exactly for what is no name, and AssertionError exactly for a name with an end
    not after the start; otherwise the note has the nearest pitch from 0 to 127, and the name of that pitch. *)
Theorem C211_from_name : forall name s e vel prog ins drum,
  (from_name name s e vel prog ins drum = None <-> forall p, ~ spelled name p) /\
  (forall p, spelled name p -> (e <= s)%Q -> from_name name s e vel prog ins drum = Some (Err AssertionError)) /\
  (forall p, spelled name p -> (s < e)%Q -> exists n, from_name name s e vel prog ins drum = Some (Ok n) /\
     nearest_in 0 127 p (n_pitch (nm_note n)) /\ nearest_in 0 127 vel (n_velocity (nm_note n)) /\
     nearest_in 0 255 prog (n_program (nm_note n)) /\ nearest_in 0 127 ins (n_instrument (nm_note n)) /\
     n_drum (nm_note n) = drum /\ n_start (nm_note n) = s /\ n_end (nm_note n) = e /\
     n_voice (nm_note n) = 0 /\ n_num (nm_note n) = 4 /\ n_den (nm_note n) = 4 /\ n_is_quantized (nm_note n) = false /\
     spelled (nm_name n) (n_pitch (nm_note n))).
Proof.
  intros name s e vel prog ins drum. split; [|split].
  - unfold from_name. destruct (note_to_midi name) as [p|] eqn:E.
    + split; [discriminate|]. intros H. apply spelled_iff in E. destruct (H p E).
    + split; [|reflexivity]. intros _ p H. apply spelled_iff in H. congruence.
  - intros p H L. apply spelled_iff in H. unfold from_name, nm_new, n_new. rewrite H. cbn [n_end n_start].
    destruct (Qle_bool e s) eqn:B; [reflexivity|]. apply Qle_bool_false in B. lra.
  - intros p H L. apply spelled_iff in H. unfold from_name. rewrite H.
    set (a := mkN p vel prog ins 0 4 4 drum s e (-1) (-1)).
    assert (A : n_new a = Ok (mkN (clamp_warn 127 p) (clamp_warn 127 vel) (Z.min (Z.max 0 prog) 255) (Z.min (Z.max ins 0) 127) 0 4 4 drum s e (-1) (-1))).
    { unfold n_new, a. cbn [n_end n_start n_num n_den]. destruct (Qle_bool e s) eqn:B; [apply Qle_bool_iff in B; lra|reflexivity]. }
    unfold nm_new. rewrite A. cbn [bind n_pitch]. eexists; split; [reflexivity|]. cbn [nm_note nm_name n_pitch n_velocity n_program n_instrument n_drum n_start n_end n_voice n_num n_den].
    rewrite !clamp_warn_eq by lia.
    split; [apply nearest_clamp; lia|]. split; [apply nearest_clamp; lia|].
    split; [replace (Z.min (Z.max 0 prog) 255) with (Z.max 0 (Z.min 255 prog)) by lia; apply nearest_clamp; lia|].
    split; [replace (Z.min (Z.max ins 0) 127) with (Z.max 0 (Z.min 127 ins)) by lia; apply nearest_clamp; lia|].
    split; [reflexivity|]. split; [reflexivity|]. split; [reflexivity|]. split; [reflexivity|]. split; [reflexivity|]. split; [reflexivity|].
    split; [reflexivity|]. apply name_spelled. lia.
Qed.
Print Assumptions C211_from_name.
(** C10 is 132: the note gets pitch 127 and the name G9. *)
Example C211_case_from_name : exists n, from_name [67; 49; 48] 0 1 127 0 0 false = Some (Ok n) /\ n_pitch (nm_note n) = 127 /\ nm_name n = [71; 57].
Proof. eexists; split; [vm_compute; reflexivity|]. split; reflexivity. Qed.
(** C211: a fresh note with the defaults can be made again from its name. *)
Theorem C211_same_note : forall a n, nm_new a = Ok n ->
  n_voice (nm_note n) = 0 -> n_num (nm_note n) = 4 -> n_den (nm_note n) = 4 -> n_qs (nm_note n) = (-1)%Q -> n_qe (nm_note n) = (-1)%Q ->
  let m := nm_note n in from_name (nm_name n) (n_start m) (n_end m) (n_velocity m) (n_program m) (n_instrument m) (n_drum m) = Some (Ok n).
Proof.
  intros a n H V N D Qs Qe m. unfold nm_new in H. destruct (n_new a) as [b|] eqn:E; [|discriminate]. cbn [bind] in H. apply Ok_inj in H. subst n.
  cbn [nm_note nm_name] in *. subst m. pose proof (n_new_ranges _ _ E) as [R L]. unfold from_name. rewrite C211_roundtrip by (apply R).
  f_equal. destruct b as [p0 v0 pr i0 vo nu de dr st en q1 q2]. cbn [n_voice n_num n_den n_qs n_qe n_start n_end n_velocity n_program n_instrument n_drum n_pitch] in *. subst.
  unfold nm_new. rewrite n_new_id; [reflexivity|exact R|exact L|]. exists 2. cbn. lia.
Qed.
Print Assumptions C211_same_note.
Example C211_case_same : exists n, nm_new (mkN 61 90 5 2 0 4 4 false (1#2) 3 (-1) (-1)) = Ok n /\ nm_name n = [67; 9839; 52] /\
  from_name [67; 9839; 52] (1#2) 3 90 5 2 false = Some (Ok n).
Proof. eexists; split; [vm_compute; reflexivity|]. split; reflexivity. Qed.
(** C211: whatever is done to a note later, its name stays that of the pitch it was made with: it is right exactly while
    the pitch is that pitch. A copy has the name of the pitch the note has. *)
Theorem C211_stale : forall a n ops, nm_new a = Ok n ->
  let n' := nm_run n ops in
  nm_note n' = n_run (nm_note n) ops /\ nm_name n' = nm_name n /\ spelled (nm_name n') (n_pitch (nm_note n)) /\
  (spelled (nm_name n') (n_pitch (nm_note n')) <-> n_pitch (nm_note n') = n_pitch (nm_note n)) /\
  (forall c, nm_copy n' = Ok c -> n_pitch (nm_note c) = n_pitch (nm_note n') /\ spelled (nm_name c) (n_pitch (nm_note n'))).
Proof.
  intros a n ops H n'.
  assert (X : forall ops n, nm_note (nm_run n ops) = n_run (nm_note n) ops /\ nm_name (nm_run n ops) = nm_name n).
  { clear. induction ops as [|o ops IH]; intros n; [split; reflexivity|]. unfold nm_run, n_run. cbn [fold_left].
    fold (nm_run (snd (nm_step n o)) ops). fold (n_run (snd (n_step (nm_note n) o)) ops). destruct (IH (snd (nm_step n o))) as [A B]. rewrite A, B.
    unfold nm_step. destruct (n_step (nm_note n) o) as [r m]. split; reflexivity. }
  destruct (X ops n) as [A B]. fold n' in A, B. split; [exact A|]. split; [exact B|].
  unfold nm_new in H. destruct (n_new a) as [b|] eqn:E; [|discriminate]. cbn [bind] in H. apply Ok_inj in H. subst n. cbn [nm_note nm_name] in *.
  pose proof (C14_ranges_invariant a b ops E) as R. pose proof (n_new_ranges _ _ E) as [R0 _]. rewrite <- A in R.
  assert (Sp : spelled (nm_name n') (n_pitch b)) by (rewrite B; apply name_spelled; apply R0).
  split; [exact Sp|]. split.
  - split; [|intros ->; exact Sp]. intros S2. apply spelled_iff in Sp, S2. congruence.
  - intros c Hc. unfold nm_copy, nm_new in Hc. destruct (n_new (nm_note n')) as [d|] eqn:Ed; [|discriminate]. cbn [bind] in Hc. apply Ok_inj in Hc. subst c. cbn [nm_note nm_name].
    apply n_new_fields in Ed as F. assert (Pe : n_pitch d = n_pitch (nm_note n')) by (eapply L_Note.nearest_unique; [apply F|apply R]).
    split; [exact Pe|]. rewrite Pe. apply name_spelled. apply R.
Qed.
Print Assumptions C211_stale.
Example C211_case_stale : exists n, nm_new (mk0 60 0 1) = Ok n /\ nm_name (nm_run n [NSetPitch 61]) = midi_to_note 60 /\
  exists c, nm_copy (nm_run n [NSetPitch 61]) = Ok c /\ nm_name c = [67; 9839; 52].
Proof. eexists; split; [vm_compute; reflexivity|]. split; [reflexivity|]. eexists; split; [vm_compute; reflexivity|reflexivity]. Qed.
