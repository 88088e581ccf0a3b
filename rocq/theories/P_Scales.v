(** Note names, scales and chords: C61-C63, C105-C109. *)
From Coq Require Import Permutation Ascii.
From Verif Require Import PyBase M_Chord M_Experiments M_Scales S_Scales L_Scales L_Scales2.
Open Scope Z_scope.

(** C61. *)
Theorem C61_inverse : forall i b o, compound_interval_to_base i = Ok (b, o) <-> base_to_compound_interval b o = Ok i.
Proof. exact to_base_iff. Qed.
Print Assumptions C61_inverse.
Theorem C61_to_base : forall i,
  (exists b o, compound_interval_to_base i = Ok (b, o) /\ 0 <= b <= 11 /\ 0 <= o /\ i = 12 * o + b) \/
  (i < 0 /\ compound_interval_to_base i = Err ValueError).
Proof. exact to_base_total. Qed.
Print Assumptions C61_to_base.
Theorem C61_from_base : forall b o,
  (0 <= b <= 11 -> 0 <= o -> base_to_compound_interval b o = Ok (12 * o + b)) /\
  (~ (0 <= b <= 11 /\ 0 <= o) -> base_to_compound_interval b o = Err ValueError).
Proof. exact from_base_total. Qed.
Print Assumptions C61_from_base.
Example C61_case : compound_interval_to_base 19 = Ok (7, 1) /\ base_to_compound_interval 7 1 = Ok 19.
Proof. split; reflexivity. Qed.

(** C62. *)
Theorem C62_notes : forall it t r s a, iterates it -> spelled r s -> designates a t ->
  exists ns, notes_from_scale it (RStr s) a = Ok ns /\ List.length ns = 7%nat /\
  forall i, (i < 7)%nat -> exists n, nth_error ns i = Some n /\ spelled ((r + degree t i) mod 12) n.
Proof. exact notes_scale_ok. Qed.
Print Assumptions C62_notes.
(** C62. *)
Theorem C62_accepted : forall it r a, iterates it ->
  ((exists ns, notes_from_scale it r a = Ok ns) <-> (exists s p t, r = RStr s /\ spelled p s /\ designates a t)) /\
  (forall e, notes_from_scale it r a = Err e -> e = ValueError).
Proof. exact notes_scale_iff. Qed.
Print Assumptions C62_accepted.
(** C62. *)
Theorem C62_transpose : forall it r1 r2 s1 s2 a l1 l2 i n1 n2 c1, iterates it -> spelled r1 s1 -> spelled r2 s2 ->
  notes_from_scale it (RStr s1) a = Ok l1 -> notes_from_scale it (RStr s2) a = Ok l2 -> nth_error l1 i = Some n1 -> nth_error l2 i = Some n2 ->
  spelled c1 n1 -> spelled ((c1 + (r2 - r1)) mod 12) n2.
Proof. exact notes_transpose. Qed.
Print Assumptions C62_transpose.
(** C62: the two tables of a scale agree with its steps, which fill the octave. *)
Theorem C62_tables : forall t, scales t = map (degree t) [0; 1; 2; 3; 4; 5; 6]%nat /\ degree t 7 = 12 /\ Permutation (scale_intervals t) (scales t).
Proof. exact scales_table. Qed.
Print Assumptions C62_tables.
(** C62: intervals_from_scale takes a member, or a member's name in any case. *)
Theorem C62_intervals : forall a,
  (forall t, a = SType t \/ (exists s, a = SStr s /\ upper s = scale_name t) ->
     exists l, intervals_from_scale a = Ok l /\ Permutation l (map (degree t) [0; 1; 2; 3; 4; 5; 6]%nat)) /\
  (forall s, a = SStr s -> (forall t, upper s <> scale_name t) -> intervals_from_scale a = Err KeyError).
Proof. exact intervals_named. Qed.
Print Assumptions C62_intervals.
Example C62_case : iterates (@rev Z) /\ spelled 9 "A" /\ designates (SStr "harmonic_minor") HARMONIC_MINOR /\
  notes_from_scale (@rev Z) (RStr "A") (SStr "harmonic_minor") = Ok ["A"; "B"; "C"; "D"; "E"; "F"; "G#"]%string /\
  notes_from_scale (@rev Z) (RInt 9) (SStr "harmonic_minor") = Err ValueError /\ notes_from_scale (@rev Z) (RStr "a") (SType MAJOR) = Err ValueError.
Proof. split; [intros l; apply Permutation_rev|]. split; [left; cbn; tauto|]. split; [right; reflexivity|]. repeat split. Qed.

(** C63. *)
Theorem C63_name : forall p, exists n, spelled (p mod 12) n /\ pitch_to_note p = Ok (n ++ py_str (p / 12))%string.
Proof. exact pitch_name_ok. Qed.
Print Assumptions C63_name.
Theorem C63_injective : forall p q s, pitch_to_note p = Ok s -> pitch_to_note q = Ok s -> p = q.
Proof. exact pitch_inj. Qed.
Print Assumptions C63_injective.
Example C63_case : pitch_to_note 61 = Ok "C#5"%string /\ pitch_to_note (-1) = Ok "B-1"%string.
Proof. split; reflexivity. Qed.

(** C105. *)
Theorem C105_pitches : forall r p l vs, uniform l -> root_is r p -> Forall2 stands_for l vs ->
  chord_pitch_from_interval r l = Ok (map (fun v => (p + v) mod 12) vs).
Proof. exact chord_ok. Qed.
Print Assumptions C105_pitches.
(** C105. *)
Theorem C105_rejects : forall r l,
  (~ uniform l -> chord_pitch_from_interval r l = Err TypeError) /\
  (uniform l -> (forall p, ~ root_is r p) -> chord_pitch_from_interval r l = Err ValueError) /\
  (forall p e, uniform l -> root_is r p -> In e l -> (forall v, ~ stands_for e v) -> chord_pitch_from_interval r l = Err KeyError).
Proof. intros r l. split; [apply chord_mixed|]. split; [apply chord_bad_root|]. intros p e. apply chord_bad_interval. Qed.
Print Assumptions C105_rejects.
(** C105: interval names are compared in capitals. *)
Theorem C105_case : forall r ss, chord_pitch_from_interval r (map IStr ss) = chord_pitch_from_interval r (map IStr (map upper ss)).
Proof. exact chord_case. Qed.
Print Assumptions C105_case.
Example C105_ex : chord_pitch_from_interval (RStr "d#") (map IStr ["P1"; "m3"; "P5"]%string) = Ok [3; 7; 10] /\
  chord_pitch_from_interval (RInt 3) (map IVal [0; 3; 7]) = Ok [3; 6; 10] /\
  chord_pitch_from_interval (RInt 3) [IVal 0; IStr "P5"] = Err TypeError /\ chord_pitch_from_interval (RInt 3) [IVal 14] = Err KeyError.
Proof. repeat split. Qed.
Example C105_hyp : uniform (map IStr ["P1"; "m3"; "P5"]%string) /\ root_is (RStr "d#") 3 /\ Forall2 stands_for (map IStr ["P1"; "m3"; "P5"]%string) [0; 4; 7].
Proof.
  split; [left; intros e H; apply in_map_iff in H as [s [<- _]]; eauto|]. split.
  - right. exists "d#"%string. split; auto. right. exists "D"%string, 2. cbn. repeat split; try tauto; discriminate.
  - repeat (constructor; [right; eexists; split; [reflexivity|cbn; tauto]|]). constructor.
Qed.

(** C106. *)
Theorem C106_sound : forall l n, get_chord_name l = Some n \/ get_chord_name_from_intervals l = Some n -> get_chord_intervals n = Ok l.
Proof. intros l n [H|H]; [apply name_sound|apply reverse_sound]; exact H. Qed.
Print Assumptions C106_sound.
Theorem C106_complete : forall n l, get_chord_intervals n = Ok l ->
  (n <> "aug7"%string -> get_chord_name l = Some n) /\ (n <> "M7"%string -> get_chord_name_from_intervals l = Some n).
Proof. intros n l H. split; [apply name_complete|apply reverse_complete]; exact H. Qed.
Print Assumptions C106_complete.
Theorem C106_agree : forall l, get_chord_name l = get_chord_name_from_intervals l <-> l <> [4; 3; 4].
Proof. exact names_agree. Qed.
Print Assumptions C106_agree.
Example C106_case : get_chord_intervals "m7b5" = Ok [3; 3; 4] /\ get_chord_name [3; 3; 4] = Some "m7b5"%string /\
  get_chord_name [4; 3; 4] = Some "M7"%string /\ get_chord_name_from_intervals [4; 3; 4] = Some "aug7"%string /\ get_chord_name [1; 1] = None.
Proof. repeat split. Qed.

(** C107. *)
Theorem C107_triads : forall it r p a t, iterates it -> root_is r p -> designates a t ->
  exists l, triads_from_scale_tuple it r a = Ok l /\ List.length l = 7%nat /\
    (forall i, (i < 7)%nat -> exists x y z q, nth_error l i = Some ([x; y; z], q) /\
        spelled (scale_note t p i 0) x /\ spelled (scale_note t p i 2) y /\ spelled (scale_note t p i 4) z) /\
    triads_from_scale it r a = Ok (map (fun tr => String.concat "" (fst tr)) l).
Proof.
  intros it r p a t I R D. destruct (tuple_ok it r p a t I R D) as [l [A [B [C E]]]]. exists l. split; auto. split; auto. split; auto.
  intros i L. destruct (C i L) as [x [y [z [q [N [_ S]]]]]]. exists x, y, z, q. split; auto.
Qed.
Print Assumptions C107_triads.
(** C107: the chord types are those of the notes exactly for six of the ten scales. *)
Theorem C107_quality : forall it r p a t l, iterates it -> root_is r p -> designates a t -> triads_from_scale_tuple it r a = Ok l ->
  (In t [MAJOR; MINOR; LYDIAN; AEOLIAN; HARMONIC_MINOR; MELODIC_MINOR] <->
   forall i ns q, nth_error l i = Some (ns, q) -> quality (scale_note t p i 0) (scale_note t p i 2) (scale_note t p i 4) q).
Proof. exact tuple_quality. Qed.
Print Assumptions C107_quality.
Theorem C107_rejects : forall it r a,
  ((forall t, ~ designates a t) -> triads_from_scale_tuple it r a = Err ValueError /\ triads_from_scale it r a = Err ValueError) /\
  (forall t, designates a t -> (forall p, ~ root_is r p) ->
     let e := match r with RInt _ => ValueError | RStr _ => KeyError end in triads_from_scale_tuple it r a = Err e /\ triads_from_scale it r a = Err e).
Proof. intros it r a. split; [apply tuple_bad_scale|intros t; apply tuple_bad_root]. Qed.
Print Assumptions C107_rejects.
Example C107_case : root_is (RStr "g") 7 /\ option_map (fun l => nth 6 l ([], EmptyString)) (match triads_from_scale_tuple (@rev Z) (RStr "g") (SType MAJOR) with Ok l => Some l | Err _ => None end)
    = Some (["F#"; "A"; "C"]%string, "dim"%string) /\
  triads_from_scale (@rev Z) (RInt 0) (SStr "major") = Ok ["CEG"; "DFA"; "EGB"; "FAC"; "GBD"; "ACE"; "BDF"]%string.
Proof. split; [right; exists "g"%string; split; auto; left; cbn; tauto|]. split; reflexivity. Qed.

(** C108. *)
Theorem C108_from_semitones : forall s, (0 <= s <= 22 -> from_semitones s = Ok s) /\ (~ 0 <= s <= 22 -> from_semitones s = Err ValueError).
Proof. exact from_semitones_ok. Qed.
Print Assumptions C108_from_semitones.
Theorem C108_compound : forall a b, 0 <= a <= 22 -> 0 <= b <= 22 -> compound_interval_from_bases a b = if a + b <=? 22 then Ok (a + b) else Err ValueError.
Proof. exact compound_ok. Qed.
Print Assumptions C108_compound.
(** C108: the bases add up to the interval; its "inverse" is the octave complement of each base summed, which is the
    octave complement of the interval only for a unison or an octave. *)
Theorem C108_inverse : forall i, 0 <= i <= 22 -> exists b, bases i = Some b /\ zsum b = i /\
  inverse_compound_interval i = Ok (12 * Z.of_nat (List.length b) - i) /\ (inverse_compound_interval i = Ok (12 - i) <-> i = 0 \/ i = 12).
Proof. exact inverse_ok. Qed.
Print Assumptions C108_inverse.
Example C108_case : compound_interval_from_bases 12 7 = Ok 19 /\ compound_interval_from_bases 12 12 = Err ValueError /\ bases 7 = Some [2; 4; 1] /\ inverse_compound_interval 7 = Ok 29.
Proof. repeat split. Qed.

(** C109. *)
Theorem C109_chord : forall s p c ks, spelled p s -> one_letter c ks ->
  exists ns, chord_from_scale (s ++ String c EmptyString) = Ok ns /\ Forall2 (fun k n => spelled ((p + k) mod 12) n) ks ns.
Proof. exact letter_chord. Qed.
Print Assumptions C109_chord.
Theorem C109_rejects : forall s c,
  ((forall p, ~ spelled p s) -> chord_from_scale (s ++ String c EmptyString) = Err ValueError) /\
  (forall p, spelled p s -> c = "9"%char -> chord_from_scale (s ++ String c EmptyString) = Err KeyError) /\
  (forall p, spelled p s -> c <> "9"%char -> (forall ks, ~ one_letter c ks) -> chord_from_scale (s ++ String c EmptyString) = Err AssertionError).
Proof. exact letter_errors. Qed.
Print Assumptions C109_rejects.
(** C109: a chord name without any character. *)
Theorem C109_empty : chord_from_scale EmptyString = Err IndexError.
Proof. exact eq_refl. Qed.
Print Assumptions C109_empty.
(** C109: every chord name is reported for every root and scale. *)
Theorem C109_extended : forall it s p a t, iterates it -> spelled p s -> designates a t ->
  chord_from_scale_name_extended it s a = Ok (map (fun kv => (s ++ fst kv)%string) chord_intervals).
Proof. exact extended_scale. Qed.
Print Assumptions C109_extended.
Theorem C109_list : forall r l, (exists q, list_of_chords r l = Ok q) <-> l = [] /\ 0 <= r <= 11.
Proof. exact list_of_chords_empty. Qed.
Print Assumptions C109_list.
Example C109_case : chord_from_scale "F#7" = Ok ["F#"; "A#"; "C#"; "E"]%string /\ chord_from_scale "CM7" = Err ValueError /\ chord_from_scale "C9" = Err KeyError /\
  chord_from_scale "Cx" = Err AssertionError /\ list_of_chords 0 [IVal 4] = Err KeyError.
Proof. repeat split. Qed.

(** C119: the steps reported for a chord symbol spell the chord, but for "aug7" (which is spelled as
    a major seventh). *)
Theorem C119_steps : forall n l, get_chord_intervals n = Ok l ->
  (dict_get String.eqb n standard_tones = Some (climb 0 l) <-> n <> "aug7"%string).
Proof. exact steps_standard. Qed.
Print Assumptions C119_steps.
(** C119: the table of intervals chords are built from, but for "dim7" and the thirteenths (no eleventh). *)
Theorem C119_mapping : forall n l, dict_get String.eqb n chord_intervals_mapping = Some l ->
  (dict_get String.eqb n standard_tones = Some l <-> ~ In n ["dim7"; "13"; "M13"; "m13"]%string).
Proof. exact mapping_standard. Qed.
Print Assumptions C119_mapping.
(** C119: the symbols known are those of the standard list. *)
Theorem C119_symbols : map fst chord_intervals = map fst standard_tones /\ map fst chord_intervals_mapping = map fst standard_tones.
Proof. exact names_same. Qed.
Print Assumptions C119_symbols.
Example C119_case : get_chord_intervals "m11" = Ok [3; 4; 3; 4; 3] /\ climb 0 [3; 4; 3; 4; 3] = [0; 3; 7; 10; 14; 17].
Proof. split; reflexivity. Qed.

(** C120: every named interval is the tritone or has a quality and a number; its value is the size
    the name means in music theory exactly for the names not listed. *)
Theorem C120_names : forall s v, interval_by_name s = Ok v ->
  s = "Tritone"%string /\ v = 6 \/ exists q k, 1 <= k <= 14 /\ s = String q (py_str k).
Proof. exact interval_names_all. Qed.
Print Assumptions C120_names.
Theorem C120_sizes : forall q k v, 1 <= k <= 14 -> interval_by_name (String q (py_str k)) = Ok v ->
  (interval_size q k = Some v <-> ~ In (String q (py_str k)) ["d7"; "d12"; "M11"; "m11"; "P13"; "A13"; "m14"; "M14"]%string).
Proof. exact interval_names_ok. Qed.
Print Assumptions C120_sizes.
Example C120_case : interval_by_name "A11" = Ok 18 /\ interval_size "A" 11 = Some 18 /\ interval_by_name "d7" = Ok 10 /\ interval_size "d" 7 = Some 9.
Proof. repeat split. Qed.
