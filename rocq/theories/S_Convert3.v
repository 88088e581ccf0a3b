(** Specification for the signatures of a converted piece. *)
From Verif Require Import PyBase M_Seqs M_Reader.
Open Scope Z_scope.

(** A time signature of a MIDI piece as pretty_midi accepts it, and the one of the object it stands for. *)
Definition time_put (s : sig (Z * Z)) (x : Z * Z * Q) : Prop :=
  fst x = g_data s /\ snd x = g_time s /\ 0 < fst (g_data s) /\ 0 < snd (g_data s) /\ (0 <= g_time s)%Q.
(** Keys are 0 (C major) to 11, minor keys 12 to 23. *)
Definition key_put (s : sig (Z * bool)) (x : Z * Q) : Prop :=
  fst x = fst (g_data s) + (if snd (g_data s) then 12 else 0) /\ snd x = g_time s /\ 0 <= fst x < 24 /\ (0 <= g_time s)%Q.
Definition time_proper (s : sig (Z * Z)) : Prop := 0 < fst (g_data s) /\ 0 < snd (g_data s) /\ (0 <= g_time s)%Q.
Definition key_proper (s : sig (Z * bool)) : Prop :=
  0 <= fst (g_data s) + (if snd (g_data s) then 12 else 0) < 24 /\ (0 <= g_time s)%Q.
