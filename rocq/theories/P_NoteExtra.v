(** Properties C125-C128: step, beat, JSON and frequency computations of notes. *)
From Coq Require Import Qround Qabs Reals.
From Verif Require Import PyBase M_Note S_Note M_NoteExtra S_NoteExtra L_NoteExtra M_Freq S_Freq L_Freq.
Open Scope Z_scope.

Definition mk1 (p : Z) (s e qs qe : Q) : note := mkN p 100 0 0 0 4 4 false s e qs qe.

(** C19: a note emptied by stretch(0) or a time assignment: at one step per second and amount 1 it is
    widened to one step; at more steps per second quantisation raises ValueError. *)
Theorem C19_empty_note : forall n k,
  (n_start n == inject_Z k)%Q -> (n_end n == inject_Z k)%Q -> 0 <= k < 999998 -> (n_qs n < 0)%Q -> (n_qe n < 0)%Q ->
  (exists n', n_quantize_in_place n 1 1 None = (Ok tt, n') /\ (n_qs n' == inject_Z k)%Q /\ (n_qe n' == inject_Z (k + 1))%Q /\
     (n_start n' < n_end n')%Q /\ (n_end n' == inject_Z (k + 1))%Q) /\
  (forall sps, 1 < sps -> fst (n_quantize_in_place n sps 1 None) = Err ValueError).
Proof. exact quantize_empty. Qed.
Print Assumptions C19_empty_note.
Example C19_empty_note_case : let n := n_stretch (mk1 60 1 2 (-1) (-1)) 0 in
  (n_start n == inject_Z 0)%Q /\ (n_end n == inject_Z 0)%Q /\ (n_qs n < 0)%Q.
Proof. vm_compute. auto. Qed.

(** C125: lengths in steps. *)
Theorem C125_step_lengths : forall n sps,
  ((n_qs n < 0)%Q \/ (n_qe n < 0)%Q -> n_step_duration n = Err ValueError /\ n_step_seconds n sps = Err ValueError) /\
  ((0 <= n_qs n)%Q -> (0 <= n_qe n)%Q ->
    n_step_duration n = Ok (n_qe n - n_qs n + 1)%Q /\
    (sps <= 0 -> n_step_seconds n sps = Err ValueError) /\
    (0 < sps -> exists r, n_step_seconds n sps = Ok r /\ (r * inject_Z sps == n_qe n - n_qs n)%Q)).
Proof. exact step_lengths. Qed.
Print Assumptions C125_step_lengths.
(** C125: steps_to_seconds rounds to the nearest hundred-thousandth, ties away from zero. *)
Theorem C125_steps_to_seconds : forall steps sps,
  (sps = 0 -> steps_to_seconds steps sps = Err ZeroDivisionError) /\
  (sps <> 0 -> exists r, steps_to_seconds steps sps = Ok r /\ nearest_multiple 100000 (inject_Z steps / inject_Z sps) r).
Proof. exact steps_seconds. Qed.
Print Assumptions C125_steps_to_seconds.
(** C125: and quantisation at the default amount takes the seconds back to the step. *)
Theorem C125_round_trip : forall steps sps r,
  0 <= steps -> 0 < sps < 100000 -> steps_to_seconds steps sps = Ok r -> quantize_step r sps (1 # 2) true = Ok steps.
Proof. exact steps_round_trip. Qed.
Print Assumptions C125_round_trip.
Example C125_case : exists r, steps_to_seconds 1 3 = Ok r /\ (r == 33333 # 100000)%Q /\
  quantize_step r 3 (1 # 2) true = Ok 1 /\ quantize_step r 3 1 true = Ok 0 /\
  n_step_duration (mk1 60 0 1 2 5) = Ok (5 - 2 + 1)%Q.
Proof. eexists. vm_compute. intuition auto. Qed.

(** C126: beat lengths. *)
Theorem C126_beat_lengths : forall n tempo, has_meter n ->
  ((tempo == 0)%Q -> n_beat_duration n tempo = Err ZeroDivisionError /\ n_duration_in_seconds n tempo = Err ZeroDivisionError) /\
  (~ (tempo == 0)%Q -> exists b d, n_beat_duration n tempo = Ok b /\ n_duration_in_seconds n tempo = Ok d /\
     (b * tempo * inject_Z (n_den n) == 60 * inject_Z (n_num n))%Q /\
     (d * tempo == 60 * (n_end n - n_start n))%Q).
Proof. exact beat_lengths. Qed.
Print Assumptions C126_beat_lengths.
(** C126: bpm() depends on the time signature only. *)
Theorem C126_bpm : forall n, has_meter n ->
  ((n_end n - n_start n) * 2 * inject_Z (n_den n) <= inject_Z (n_num n) -> n_bpm n = Ok None)%Q /\
  (inject_Z (n_num n) < (n_end n - n_start n) * 2 * inject_Z (n_den n) ->
     exists b, n_bpm n = Ok (Some b) /\ b * inject_Z (n_num n) == 120 * inject_Z (n_den n))%Q.
Proof. exact bpm_spec. Qed.
Print Assumptions C126_bpm.
(** C126: is_four_quarter_note holds exactly for 4/4 notes that last a minute. *)
Theorem C126_four_quarter : forall n,
  n_is_four_quarter n = true <->
  n_num n = 4 /\ n_den n = 4 /\ (Qabs (n_end n - n_start n - 60) <= (1 # 1000000000) * Qmaxb (Qabs (n_end n - n_start n)) 60)%Q.
Proof. exact four_quarter. Qed.
Print Assumptions C126_four_quarter.
Example C126_case : has_meter (mk1 60 0 2 (-1) (-1)) /\
  (exists b, n_bpm (mk1 60 0 2 (-1) (-1)) = Ok (Some b) /\ (b == 120)%Q) /\ n_bpm (mk1 60 0 (1 # 2) (-1) (-1)) = Ok None /\
  n_is_four_quarter (mk1 60 0 60 (-1) (-1)) = true /\ n_is_four_quarter (mk1 60 0 (1 # 2) (-1) (-1)) = false.
Proof. split; [vm_compute; auto|]. split; [eexists; vm_compute; split; reflexivity|]. vm_compute. auto. Qed.

(** C127: from_json of a complete dictionary is the constructor. *)
Theorem C127_complete : forall a,
  n_from_json (json_of a) = match n_new a with Ok n => Ok (n, Some (n_voice a), Some (n_qe a)) | Err e => Err e end.
Proof. exact json_full. Qed.
Print Assumptions C127_complete.
(** C127: and the entries that look optional are not. *)
Theorem C127_missing : forall j,
  (lacks_required j -> n_from_json j = Err KeyError) /\
  (~ lacks_required j -> j_num j = None \/ j_den j = None -> n_from_json j = Err AssertionError) /\
  (j_qs j = None -> exists e, n_from_json j = Err e) /\
  (forall n v q, n_from_json j = Ok (n, v, q) -> v = j_voice j /\ q = j_qe j /\
      (j_drum j = None -> n_drum n = false) /\ (q = None -> exists s, j_qs j = Some s /\ s < 0)%Q).
Proof. exact json_missing. Qed.
Print Assumptions C127_missing.
(** C127: a start step is required, and an end step unless the start step is negative. *)
Theorem C127_steps : forall a voice drum qs qe, accepts a ->
  n_from_json (mkJ (Some (n_pitch a)) (Some (n_start a)) (Some (n_end a)) (Some (n_program a)) (Some (n_instrument a))
    (Some (n_velocity a)) qs qe voice (Some (n_num a)) (Some (n_den a)) drum) = Err TypeError <->
  qs = None \/ (qe = None /\ exists s, qs = Some s /\ (0 <= s)%Q).
Proof. exact json_steps. Qed.
Print Assumptions C127_steps.
Example C127_case :
  n_from_json (json_of (mk1 60 0 1 (-1) (-1))) = Ok (mk1 60 0 1 (-1) (-1), Some 0, Some (-1)%Q) /\
  n_from_json (mkJ (Some 60) (Some 0%Q) (Some 1%Q) (Some 0) (Some 0) (Some 100) None None None None None None) = Err AssertionError /\
  n_from_json (mkJ (Some 60) (Some 0%Q) (Some 1%Q) (Some 0) (Some 0) (Some 100) None None None (Some 4) (Some 4) None) = Err TypeError.
Proof. vm_compute. auto. Qed.

Open Scope R_scope.
(** C128: note_to_freq is equal temperament with A4 = 440. *)
Theorem C128_equal_temperament : equal_tempered note_to_freq /\
  (forall n, (note_to_freq (n + 1)%Z / note_to_freq n) ^ 12 = 2).
Proof. exact (conj freq_tempered freq_twelfth). Qed.
Print Assumptions C128_equal_temperament.
(** C128: pitch_to_freq is nine semitones above the named pitch. *)
Theorem C128_pitch : forall p o,
  (forall k, midi_number p o k -> exists f, pitch_to_freq p o = Ok f /\ f = note_to_freq (k + 9)%Z) /\
  (~ In p names -> pitch_to_freq p o = Err KeyError).
Proof. exact pitch_freq. Qed.
Print Assumptions C128_pitch.
(** C128: in particular the documented pitch_to_freq('A', 4) = 440 is false. *)
Example C128_documented_value_false : exists f, pitch_to_freq "A" 4 = Ok f /\ 440 < f /\ pitch_to_freq "C" 4 = Ok 440.
Proof. exact pitch_a4. Qed.
(** C128: is_four_eighth_note is false for every pitch once a quarter note lasts 0.17 s. *)
Theorem C128_four_eighth : forall n tempo den,
  (0 <= n)%Z -> 17 / 100 <= 60 / tempo * 4 / IZR den -> ~ is_four_eighth_note n tempo den.
Proof. exact eighth_never. Qed.
Print Assumptions C128_four_eighth.
(** C128: it compares the period of the pitch with the length of a quarter: True exactly within 10% of the quarter. *)
Theorem C128_four_eighth_exact : forall n tempo den, 0 < tempo -> (0 < den)%Z ->
  let quarter := 240 / (tempo * IZR den) in
  (is_four_eighth_note n tempo den <-> 90 / 100 * quarter < / note_to_freq n < 110 / 100 * quarter).
Proof.
  intros n tempo den T D q. assert (DR : 0 < IZR den) by (apply IZR_lt; exact D). unfold is_four_eighth_note. cbv zeta.
  replace (60 / tempo * 4 / IZR den) with q by (unfold q; field; split; Lra.lra).
  unfold Rdiv at 1. rewrite Rmult_1_l. set (f := / note_to_freq n). clearbody f q. split.
  - intros K. apply Rabs_def2 in K. Lra.lra.
  - intros K. apply Rabs_def1; Lra.lra.
Qed.
Print Assumptions C128_four_eighth_exact.
Example C128_case : midi_number "A" 4 69 /\ 17 / 100 <= 60 / 120 * 4 / IZR 4.
Proof. split; [exists 9%nat; split; reflexivity|Lra.lra]. Qed.
