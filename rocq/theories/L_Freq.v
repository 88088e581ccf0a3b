From Coq Require Import Reals ZArith String List Lra Lia.
From Verif Require Import PyBase M_Freq S_Freq.
Open Scope R_scope.

Lemma freq_step : forall n k, note_to_freq (n + k)%Z = note_to_freq n * Rpower 2 (IZR k / 12).
Proof.
  intros n k. unfold note_to_freq, reference_note, semitones_per_octave. rewrite Rmult_assoc, <- Rpower_plus. f_equal. f_equal.
  rewrite <- Rdiv_plus_distr, <- plus_IZR. f_equal. f_equal. lia.
Qed.
Lemma freq_pos : forall n, 0 < note_to_freq n.
Proof. intro n. unfold note_to_freq, standard_freq. apply Rmult_lt_0_compat; [lra|apply exp_pos]. Qed.
Lemma freq_tempered : equal_tempered note_to_freq.
Proof.
  split; [|split; [|split; [|split]]].
  - unfold note_to_freq, reference_note, standard_freq. replace (IZR (69 - 69) / IZR semitones_per_octave) with 0.
    + rewrite Rpower_O by lra. lra.
    + change (69 - 69)%Z with 0%Z. unfold semitones_per_octave. lra.
  - exact freq_pos.
  - intro n. rewrite freq_step. replace (IZR 12 / 12) with 1 by lra. rewrite Rpower_1 by lra. lra.
  - intros n m. rewrite !freq_step. pose proof (freq_pos n). pose proof (freq_pos m). field. split; lra.
  - intros n m H. unfold note_to_freq, standard_freq. apply Rmult_lt_compat_l; [lra|]. apply Rpower_lt; [lra|].
    unfold semitones_per_octave. apply Rmult_lt_compat_r; [lra|]. apply IZR_lt. lia.
Qed.
Lemma freq_twelfth : forall n, (note_to_freq (n + 1)%Z / note_to_freq n) ^ 12 = 2.
Proof.
  intro n. rewrite freq_step. pose proof (freq_pos n).
  replace (note_to_freq n * Rpower 2 (1 / 12) / note_to_freq n) with (Rpower 2 (1 / 12)) by (field; lra).
  rewrite <- Rpower_pow by apply exp_pos. rewrite Rpower_mult. replace (1 / 12 * INR 12) with 1; [apply Rpower_1; lra|].
  simpl INR. lra.
Qed.
(** The constructor of the tempered scale: any equal-tempered assignment agrees with it. *)
Lemma pitch_freq : forall p o,
  (forall k, midi_number p o k -> exists f, pitch_to_freq p o = Ok f /\ f = note_to_freq (k + 9)%Z) /\
  (~ In p names -> pitch_to_freq p o = Err KeyError).
Proof.
  intros p o. split.
  - intros k [i [H E]]. unfold names in H.
    do 12 (destruct i as [|i]; [cbn in H; injection H as <-; eexists; split; [reflexivity|]; subst k; f_equal; unfold reference_note, semitones_per_octave; lia|]).
    destruct i; discriminate.
  - intro N. unfold names in N. cbn [In] in N. unfold pitch_to_freq, pitch_index. cbn [lookup].
    repeat match goal with |- context [String.eqb ?a p] => destruct (String.eqb_spec a p) as [E|_]; [exfalso; apply N; tauto|] end.
    reflexivity.
Qed.
Lemma pitch_a4 : exists f, pitch_to_freq "A" 4 = Ok f /\ 440 < f /\ pitch_to_freq "C" 4 = Ok 440.
Proof.
  eexists. split; [reflexivity|]. destruct freq_tempered as [A [_ [_ [_ M]]]]. split.
  - rewrite <- A. apply M. unfold reference_note, semitones_per_octave. lia.
  - rewrite <- A. reflexivity.
Qed.
Lemma freq_low : forall n, (0 <= n)%Z -> 440 / 64 <= note_to_freq n.
Proof.
  intros n H. destruct freq_tempered as [A [_ [O [_ M]]]].
  assert (E : note_to_freq (-3) = 440 / 64).
  { pose proof (O (-3)%Z) as O1. pose proof (O 9%Z) as O2. pose proof (O 21%Z) as O3. pose proof (O 33%Z) as O4.
    pose proof (O 45%Z) as O5. pose proof (O 57%Z) as O6.
    change (-3 + 12)%Z with 9%Z in O1. change (9 + 12)%Z with 21%Z in O2. change (21 + 12)%Z with 33%Z in O3.
    change (33 + 12)%Z with 45%Z in O4. change (45 + 12)%Z with 57%Z in O5. change (57 + 12)%Z with 69%Z in O6.
    generalize dependent (note_to_freq (-3)). intros. lra. }
  rewrite <- E. left. apply M. lia.
Qed.
Lemma eighth_never : forall n tempo den, (0 <= n)%Z -> (17 / 100 <= 60 / tempo * 4 / IZR den) -> ~ is_four_eighth_note n tempo den.
Proof.
  intros n tempo den Hn Hq. unfold is_four_eighth_note. cbv zeta. set (q := 60 / tempo * 4 / IZR den) in *. clearbody q.
  pose proof (freq_low n Hn) as L. pose proof (freq_pos n) as P.
  assert (U : 1 / note_to_freq n <= 64 / 440).
  { unfold Rdiv at 1. rewrite Rmult_1_l. replace (64 / 440) with (/ (440 / 64)) by (field). apply Rinv_le_contravar; lra. }
  intro K. apply Rabs_def2 in K. lra.
Qed.
