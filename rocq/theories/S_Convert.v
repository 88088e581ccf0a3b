(** Specification for converting multi-track objects back into MIDI pieces. *)
From Verif Require Import PyBase M_Note M_Events M_Seq M_Seqs M_Reader M_Song.
Open Scope Z_scope.

(** The entry (tick, seconds per tick) written for the tempo signature [s] when [q] is the tempo written
    before it: its tick is the one nearest to the time of [s] if the tempo had been [q] from time 0 on. *)
Definition placed (r : Z) (q : Q) (s : sig Q) (e : Z * Q) : Prop :=
  (snd e == 60 / (g_data s * inject_Z r))%Q /\
  ((g_time s <= 0)%Q -> fst e = 0) /\
  ((0 < g_time s)%Q -> 0 <= fst e /\ (Qabsb (inject_Z (fst e) - g_time s * (q * inject_Z r / 60)) <= 1 # 2)%Q).
(** A note of a multi-track object. *)
Definition note_of (so : M_Reader.song) (n : note) : Prop := exists q, In q (ms_values (so_ms so)) /\ In n (q_notes q).
(** [t] is the end of the last note. *)
Definition last_end (so : M_Reader.song) (t : Q) : Prop :=
  (forall n, note_of so n -> (n_end n <= t)%Q) /\ exists n, note_of so n /\ n_end n = t.
(** Some note starts between 50 ms and 2 s after another one, and none in between. *)
Definition has_rhythm (l : list snote) : Prop :=
  exists a b, In a l /\ In b l /\ (1 # 20 < sn_start b - sn_start a)%Q /\ (sn_start b - sn_start a < 2)%Q /\
  forall c, In c l -> ~ (sn_start a < sn_start c /\ sn_start c < sn_start b)%Q.
