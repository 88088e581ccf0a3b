(** Specification for saving a multi-track object and reading it again. *)
From Coq Require Import Permutation.
From Verif Require Import PyBase M_Note M_Events M_Seq M_Seqs M_Reader M_Meta M_Song S_Pipe.
Open Scope Z_scope.

(** Every tempo event of the first track says [us], and that tempo holds from the start. *)
Definition one_tempo (us : Z) (file : list ftrack) : Prop :=
  (forall t0 rest d v, file = t0 :: rest -> In (d, FMeta (MTempo v)) t0 -> v = us) /\ tempo_of file 0 = us.
(** The tracks that have notes, in their order. *)
Definition sounding (so : M_Reader.song) : list seq :=
  filter (fun q => match q_notes q with [] => false | _ => true end) (ms_values (so_ms so)).
(** Two notes with the same pitch, velocity and times. *)
Definition alike (a b : note) : Prop :=
  n_pitch b = n_pitch a /\ n_velocity b = n_velocity a /\ (n_start b == n_start a)%Q /\ (n_end b == n_end a)%Q.
(** The second track has the notes of the first one and its drum flag, but program 0. *)
Definition same_notes (q q' : seq) : Prop :=
  i_num (q_instr q') = 0 /\ i_drum (q_instr q') = i_drum (q_instr q) /\
  exists l, Permutation l (q_notes q) /\ Forall2 alike l (q_notes q').
