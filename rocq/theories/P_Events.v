(** Properties C22-C25, C69, C70: control changes, pitch bends, instruments, tempo. *)
From Coq Require Import Permutation.
From Verif Require Import PyBase M_Events S_Note S_Events L_Events.
Open Scope Z_scope.

(** C22: construction and every later call keep the stored values in range. *)
Theorem C22_cc_ranges : forall number value time program instrument drum step qs qe ops,
  let c0 := cc_new number value time program instrument drum step qs qe in
  let c := cc_run c0 ops in
  nearest_in 0 255 number (cc_number c) /\ nearest_in 0 255 value (cc_value c) /\
  nearest_in 0 255 program (cc_program c) /\ nearest_in 0 255 instrument (cc_instrument c) /\
  nearest_in 1 32 step (cc_step c0) /\ 1 <= cc_step c <= 32 /\
  ((0 <= time)%Q -> cc_time c0 = time) /\ (0 <= cc_time c0)%Q.
Proof. exact cc_ranges. Qed.
Print Assumptions C22_cc_ranges.
(** C22: quantising raises ValueError for every control change, rate and amount; it changes at
    most the start step and the quantised flag. *)
Theorem C22_cc_quantize_always_raises : forall c sps amount,
  fst (cc_quantize_in_place c sps amount) = Err ValueError /\
  cc_quantize c sps amount = Err ValueError /\
  let c' := snd (cc_quantize_in_place c sps amount) in
  (c' = c \/ (c' = snd (cc_set_qs c (cc_qs c')) /\ 0 <= cc_qs c' < cc_qe c /\ cc_quantized c' = true)).
Proof. exact cc_quantize_raises. Qed.
Print Assumptions C22_cc_quantize_always_raises.
Example C22_case :
  cc_new 300 64 2 (-4) 3 true 99 (-1) (-1) = mkCC 255 64 2 0 3 true 32 (-1) (-1) false 0 /\
  cc_quantize_in_place (cc_new 7 64 2 0 0 false 4 0 20) 4 (1#2) =
   (Err ValueError, mkCC 7 64 2 0 0 false 4 8 20 true 0).
Proof. split; reflexivity. Qed.

(** C23: construction accepts exactly the documented ranges and keeps the arguments. *)
Theorem C23_bend_accepts : forall amount program instrument time drum,
  ((-8191 <= amount <= 8191 /\ 0 <= program <= 127 /\ 0 <= instrument <= 127 /\ (0 <= time)%Q) ->
   exists t, b_new amount program instrument (Some time) drum = Ok (mkB amount program instrument (Some t) drum) /\ (t == time)%Q) /\
  (~ (-8191 <= amount <= 8191 /\ 0 <= program <= 127 /\ 0 <= instrument <= 127 /\ (0 <= time)%Q) ->
   b_new amount program instrument (Some time) drum = Err ValueError).
Proof. exact b_new_iff. Qed.
Print Assumptions C23_bend_accepts.
(** C23: any history of setter calls keeps a bend in range, and a rejected one changes nothing. *)
Theorem C23_bend_setters : forall amount program instrument time drum b ops o,
  b_new amount program instrument time drum = Ok b ->
  bend_ok (b_run b ops) /\ b_amount (b_run b ops) = amount /\ b_drum (b_run b ops) = drum /\
  (forall e, fst (b_do (b_run b ops) o) = Err e -> e = ValueError /\ snd (b_do (b_run b ops) o) = b_run b ops).
Proof. exact b_run_ok. Qed.
Print Assumptions C23_bend_setters.
Example C23_case : exists b, b_new 8191 5 127 None true = Ok b /\
  b_run b [BProgram 128; BTime (Some 3%Q); BProgram 7] = mkB 8191 7 127 (Some 3%Q) true.
Proof. eexists; split; reflexivity. Qed.

(** C24: the default name does not depend on the iteration order of the family set, is the
    (n-1)/8-th family for 1..128 and Unknown otherwise; a given name is kept. *)
Theorem C24_default_name : forall fams num name drum, Permutation fams instrument_families ->
  0 <= num <= 255 ->
  exists i, i_new fams num name drum = Ok i /\ i_num i = num /\ i_drum i = drum /\
    (name <> ""%string -> i_name i = name) /\
    (name = ""%string -> 1 <= num <= 128 ->
       i_name i = nth (Z.to_nat ((num - 1) / 8)) gm_family_names ""%string) /\
    (name = ""%string -> num = 0 \/ 128 < num -> i_name i = "Unknown"%string).
Proof. exact i_default_name. Qed.
Print Assumptions C24_default_name.
(** C24: instruments outside 0..255 are rejected; dictionaries round-trip; equality and hash agree. *)
Theorem C24_round_trip : forall f1 f2 num name drum i, Permutation f1 instrument_families ->
  (i_new f1 num name drum = Ok i -> i_from_dict f2 (i_to_dict i) = Ok i /\ i_name i <> ""%string) /\
  (~ 0 <= num <= 255 -> i_new f1 num name drum = Err ValueError).
Proof. exact i_round_trip. Qed.
Print Assumptions C24_round_trip.
(** C24: equality is field equality and equal instruments hash equally. *)
Theorem C24_eq_hash : forall h a b, (i_eqb a b = true <-> a = b) /\ (i_eqb a b = true -> i_hash h a = i_hash h b).
Proof. exact i_eq_hash. Qed.
Print Assumptions C24_eq_hash.
Example C24_case : i_new instrument_families 41 "" false = Ok (mkI 41 "Strings" false).
Proof. reflexivity. Qed.

(** C25: tempo conversions of a constructed tempo signature. *)
Theorem C25_tempo : forall time qpm resolution t, tempo_new time qpm resolution = Ok t ->
  (seconds_per_quarter t * qpm == 60)%Q /\
  (seconds_per_tick t * inject_Z resolution == 60 / qpm)%Q /\
  (t_bpm t * 4 == qpm)%Q /\
  (forall v, (t_bpm (t_set_bpm t v) == v)%Q /\ (t_qpm (t_set_bpm t v) == 4 * v)%Q).
Proof. exact tempo_facts. Qed.
Print Assumptions C25_tempo.
(** C25: microseconds per quarter and quarters per minute. *)
Theorem C25_tempo_to_qpm : forall us,
  (~ (us == 0)%Q -> exists q, tempo_to_qpm us = Ok q /\ (q * us == 60000000)%Q) /\
  ((us == 0)%Q -> tempo_to_qpm us = Err ZeroDivisionError).
Proof. exact tempo_to_qpm_facts. Qed.
Print Assumptions C25_tempo_to_qpm.
(** C25: the bpm/qpm helpers: the round trip multiplies by beats*quarter/60, so with the default
    arguments it never returns a non-zero tempo. *)
Theorem C25_bpm_qpm_round_trip : forall bpm beats quarter,
  (qpm_to_bpm (bpm_to_qpm bpm beats) quarter == bpm * inject_Z (beats * quarter) / 60)%Q /\
  (~ (bpm == 0)%Q -> ~ (qpm_to_bpm (bpm_to_qpm bpm 4) 4 == bpm)%Q).
Proof. exact bpm_qpm_round_trip. Qed.
Print Assumptions C25_bpm_qpm_round_trip.
(** C25: steps per second. *)
Theorem C25_steps_per_second : forall time qpm resolution t, tempo_new time qpm resolution = Ok t ->
  (spq_to_sps (inject_Z resolution) qpm * seconds_per_tick t == 1)%Q /\
  (sps_from_bpm qpm resolution == spq_to_sps (inject_Z resolution) qpm)%Q /\
  (bpm_spq_to_sps (inject_Z resolution) qpm 4 * 4 == sps_from_bpm qpm resolution)%Q.
Proof. exact sps_facts. Qed.
Print Assumptions C25_steps_per_second.
Example C25_case : exists t, tempo_new 0 120 480 = Ok t /\ (seconds_per_quarter t == 1#2)%Q.
Proof. eexists; split; reflexivity. Qed.

(** C69: time signatures are accepted exactly for positive numerators and power-of-two
    denominators. *)
Theorem C69_time_signature_accepts : forall time num den,
  (0 < num /\ power_of_two den -> tsig_new time num den = Ok (mkS time num den 0)) /\
  (~ (0 < num /\ power_of_two den) -> tsig_new time num den = Err ValueError).
Proof. exact tsig_new_iff. Qed.
Print Assumptions C69_time_signature_accepts.
(** C69: beats per measure is numerator*denominator/4, except over 1 where it is the numerator. *)
Theorem C69_beats_per_measure : forall time num den s, tsig_new time num den = Ok s ->
  exists q, beats_per_measure s = Ok q /\
    (den = 1 -> (q == inject_Z num)%Q) /\ (1 < den -> (q * 4 == inject_Z (num * den))%Q).
Proof. exact beats_facts. Qed.
Print Assumptions C69_beats_per_measure.
(** C69: 6/8 is documented as 2 beats. *)
Example C69_case : exists s q, tsig_new 0 6 8 = Ok s /\ beats_per_measure s = Ok q /\ (q == 12)%Q.
Proof. do 2 eexists; split; [reflexivity|]. split; reflexivity. Qed.

(** C70: copying a control change (with any history) resets the drum flag to False and the step
    to 4, clamps a time shifted below zero to 0 and keeps the rest; so the copy is equal exactly
    when none of these mattered. *)
Theorem C70_cc_copy : forall number value time program instrument drum step qs qe ops,
  let c := cc_run (cc_new number value time program instrument drum step qs qe) ops in
  let d := cc_make_copy c in
  cc_number d = cc_number c /\ cc_value d = cc_value c /\ cc_program d = cc_program c /\
  cc_instrument d = cc_instrument c /\ cc_qs d = cc_qs c /\ cc_qe d = cc_qe c /\
  cc_drum d = false /\ cc_step d = 4 /\
  ((0 <= cc_time c)%Q -> (cc_time d == cc_time c)%Q) /\ ((cc_time c <= 0)%Q -> (cc_time d == 0)%Q) /\
  (cc_eqb d c = true <-> cc_drum c = false /\ cc_step c = 4 /\ (0 <= cc_time c)%Q).
Proof. exact cc_copy. Qed.
Print Assumptions C70_cc_copy.
Example C70_case : cc_eqb (cc_make_copy (cc_new 7 64 2 0 0 true 4 (-1) (-1))) (cc_new 7 64 2 0 0 true 4 (-1) (-1)) = false.
Proof. reflexivity. Qed.
