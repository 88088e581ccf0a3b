(** Specification for reading files into multi-track objects. *)
From Verif Require Import PyBase M_Note M_Events M_Seq M_Seqs M_Reader.
Open Scope Z_scope.

(** A note whose start and end are not within a relative 1e-9 of each other. *)
Definition audible (n : rnote) : Prop :=
  ~ (1000000000 * Qabsb (rn_start n - rn_end n) <= Qmaxb (Qabsb (rn_start n)) (Qabsb (rn_end n)))%Q.
(** The notes of [l] that are audible and end no earlier than every audible note before them;
    [seen] are the notes before [l]. *)
Inductive survivors (seen : list rnote) : list rnote -> list rnote -> Prop :=
| sv_nil : survivors seen [] []
| sv_keep n l k : audible n -> (forall m, In m seen -> audible m -> (rn_end m <= rn_end n)%Q) ->
    survivors (seen ++ [n]) l k -> survivors seen (n :: l) (n :: k)
| sv_drop n l k : ~ audible n \/ (exists m, In m seen /\ audible m /\ (rn_end n < rn_end m)%Q) ->
    survivors (seen ++ [n]) l k -> survivors seen (n :: l) k.
(** The same pitch, velocity and times. *)
Definition same_note (a : rnote) (b : note) : Prop :=
  n_pitch b = rn_pitch a /\ n_velocity b = rn_vel a /\ n_start b = rn_start a /\ n_end b = rn_end a.

(** Files as a MIDI library produces them. *)
Definition note_ok (n : rnote) : Prop :=
  0 <= rn_pitch n <= 127 /\ 0 <= rn_vel n <= 127 /\ (0 <= rn_start n)%Q /\ (rn_start n <= rn_end n)%Q.
Definition inst_ok (i : rinst) : Prop :=
  0 <= ri_prog i < 128 /\ Forall note_ok (ri_notes i) /\
  Forall (fun b => -8191 <= fst b <= 8191 /\ (0 <= snd b)%Q) (ri_bends i) /\
  Forall (fun c => 0 <= fst (fst c) <= 127 /\ 0 <= snd (fst c) <= 127 /\ (0 <= snd c)%Q) (ri_ccs i).
Definition file_ok (f : mfile) : Prop :=
  0 < mf_res f /\ Forall (fun k => 0 <= fst k < 24) (mf_keys f) /\ Forall (fun t => (0 < snd t)%Q) (mf_tempos f) /\
  Forall (fun t => 0 < fst (fst t) <= 255 /\ exists k, 0 <= k <= 7 /\ snd (fst t) = 2 ^ k) (mf_times f) /\
  Forall inst_ok (mf_insts f) /\ (List.length (mf_insts f) <= 128)%nat.
(** [t] is the end of the last audible note of the file (0 if there is none). *)
Definition file_end (f : mfile) (t : Q) : Prop :=
  let notes n := exists i, In i (mf_insts f) /\ In n (ri_notes i) /\ audible n in
  (forall n, notes n -> (rn_end n <= t)%Q) /\ ((t == 0)%Q /\ (forall n, ~ notes n) \/ exists n, notes n /\ (rn_end n == t)%Q).

Definition same_bend (a : Z * Q) (b : bend) : Prop :=
  b_amount b = fst a /\ exists t, b_time b = Some t /\ (t == snd a)%Q.
Definition same_cc (a : Z * Z * Q) (c : cc) : Prop :=
  cc_number c = fst (fst a) /\ cc_value c = snd (fst a) /\ cc_time c = snd a.
Definition has_audible (f : mfile) : Prop := exists i n, In i (mf_insts f) /\ In n (ri_notes i) /\ audible n.
