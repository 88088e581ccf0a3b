(** Model of the tempo conversions of midi/midi_time_signature.py and midi/midi_utils.py in double
    precision: every addition, multiplication and division rounds to the nearest double ([fl],
    M_Float).  Paths are under neural_graph_composer/midi.  Simplification: no overflow and no
    subnormals; the np.vectorize functions are modelled on one element; arguments are doubles or
    integers (an integer product converts to the nearest double). *)
From Coq Require Import QArith.
From Verif Require Import PyBase M_Note M_Events M_Float.
Open Scope Q_scope.

(** midi_time_signature.py:62-70 tempo_to_qpm. *)
Definition tempo_to_qpm_f (us : Q) : res Q :=
  let s := fl (us / 1000000) in if Qeq_bool s 0 then Err ZeroDivisionError else Ok (fl (60 / s)).
(** midi_time_signature.py:114-121 seconds_per_tick. *)
Definition seconds_per_tick_f (t : tempo) : Q :=
  if Qeq_bool (t_qpm t) 0 then 0
  else let ticks_per_second := fl (fl (t_qpm t * inject_Z (t_resolution t)) / 60) in fl (1 / ticks_per_second).
(** midi_time_signature.py:123-126 seconds_per_quarter. *)
Definition seconds_per_quarter_f (t : tempo) : Q := fl (seconds_per_tick_f t * inject_Z (t_resolution t)).
(** midi_time_signature.py:128-131 bpm. *)
Definition t_bpm_f (t : tempo) : Q := fl (t_qpm t / 4).
(** midi_time_signature.py:133-136, 78-82 the setters. *)
Definition t_set_bpm_f (t : tempo) (v : Q) : tempo := mkT (t_time t) (fl (v * 4)) (t_resolution t) (t_seq t).
(** midi_time_signature.py:99-112 ppq_to_qpm; the literal 1e-6 is the double next to it. *)
Definition ppq_to_qpm_f (ppq us ticks : Q) : res Q :=
  let d := fl (fl (ticks * us) * fl (1 # 1000000)) in
  if Qeq_bool d 0 then Err ZeroDivisionError
  else let quarter := fl (fl (1 / d) * ppq) in
       if Qeq_bool quarter 0 then Err ZeroDivisionError else Ok (fl (fl (60 / quarter) / d)).
(** midi_time_signature.py:213-218 measure_length. *)
Definition measure_length_f (s : tsig) : Q := fl (fl (s_time s * inject_Z (s_num s)) / inject_Z (s_den s)).

(** midi_utils.py:18-41 *)
Definition steps_per_second_from_bpm_f (bpm resolution : Q) : Q := fl (fl (bpm * resolution) / 60).
(** midi_utils.py:44-66 (denominator not 0) *)
Definition from_bpm_spq_to_sps_f (spq bpm four_quarter : Q) : Q := fl (fl (spq * fl (bpm / four_quarter)) / 60).
(** midi_utils.py:69-83 *)
Definition from_spq_to_sps_f (spq qpm : Q) : Q := fl (fl (spq * qpm) / 60).
(** np.round(x, decimals=10) in doubles: scale up, round half to even, scale down. [midi_utils.py:86-95] *)
Definition round10_f (x : Q) : Q := fl (inject_Z (round_half_even (fl (x * 10000000000))) / 10000000000).
(** midi_utils.py:86-95 *)
Definition bpm_to_qpm_np_f (bpm beats : Q) : Q := round10_f (fl (fl (bpm * beats) / 60)).
(** midi_utils.py:98-107 *)
Definition bpm_to_qpm_f (bpm beats : Q) : Q := fl (fl (bpm / 60) * beats).
(** midi_utils.py:110-123 *)
Definition qpm_to_bpm_f (qpm quarter : Q) : Q := fl (qpm * quarter).
