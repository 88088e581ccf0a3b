(** Specification vocabulary for tempo and ticks in double precision. *)
From Verif Require Import PyBase M_Ticks S_Ticks M_Float.
Open Scope Z_scope.

(** Microseconds per quarter note at tick [j] according to the tempo events [evs] (120 bpm before any). *)
Definition tempo_at (evs : list (Z * Z)) (j : Z) : Z := at_tick evs j 500000.
(** Tempi of MIDI files: three bytes, and at most 234375 beats a minute. *)
Definition usual_tempi (evs : list (Z * Z)) : Prop := forall e, In e evs -> 256 <= snd e < 2 ^ 24.
(** Seconds of tick [k] in exact arithmetic. *)
Definition exact_time (resolution : Z) (evs : list (Z * Z)) (k : Z) : Q := sum_to (tick_length resolution evs) k.
