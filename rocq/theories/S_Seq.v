(** Specification for note sequences. *)
From Coq Require Import Sorted Permutation.
From Verif Require Import PyBase M_Note M_Events M_Seq S_Note.
Open Scope Z_scope.

(** The exact order of two notes: start, then end, then pitch. *)
Definition lex_before (a b : note) : Prop :=
  (n_start a < n_start b)%Q \/ ((n_start a == n_start b)%Q /\ ((n_end a < n_end b)%Q \/
    ((n_end a == n_end b)%Q /\ n_pitch a < n_pitch b))).
Definition in_order (l : list note) : Prop := StronglySorted (fun a b => ~ lex_before b a) l.
(** No two times of the notes are different but within the tolerance. *)
Definition all_separated (l : list note) : Prop :=
  forall a b, In a l -> In b l -> separated (n_start a) (n_start b) /\ separated (n_end a) (n_end b).

(** [t] is the end of the last note of [l], or 0. *)
Definition latest_end (l : list note) (t : Q) : Prop :=
  (forall n, In n l -> (n_end n <= t)%Q) /\ (0 <= t)%Q /\
  ((t == 0)%Q \/ exists n, In n l /\ (n_end n == t)%Q).

(** [sel] picks the notes of [l] satisfying [p], in order. *)
Inductive selects {A} (p : A -> Prop) : list A -> list A -> Prop :=
| sel_nil : selects p [] []
| sel_take x l k : p x -> selects p l k -> selects p (x :: l) (x :: k)
| sel_skip x l k : ~ p x -> selects p l k -> selects p (x :: l) k.

(** Notes that belong in the sequence: same instrument number, matching drum flag. *)
Definition belongs (s : seq) (n : note) : Prop :=
  n_instrument n = i_num (q_instr s) /\ n_drum n = i_drum (q_instr s).

(** The window between the first and the last split time. *)
Definition in_windows (splits : list Q) (t : Q) : Prop :=
  exists a b r, splits = a :: r /\ last splits 0%Q = b /\ (a <= t)%Q /\ (t < b)%Q.
Definition ascending (l : list Q) : Prop := StronglySorted Qle l.

(** A note that can be quantised. *)
Definition quantisable (n : note) : Prop :=
  (0 <= n_start n)%Q /\ (n_start n < n_end n)%Q /\ in_ranges n /\ power_of_two (n_den n).

(** The note with its times mapped by t |-> k*t + d and nothing else changed. *)
Definition affine_note (k d : Q) (n n' : note) : Prop :=
  (n_start n' == k * n_start n + d)%Q /\ (n_end n' == k * n_end n + d)%Q /\ same_identity n' n /\
  n_qs n' = n_qs n /\ n_qe n' = n_qe n.

(** [st'] is the largest of [st] and the (old) end steps of the notes of [p]. *)
Definition largest_step (p : list note) (st st' : Q) : Prop :=
  (st <= st')%Q /\ (forall n, In n p -> (n_qe n <= st')%Q) /\ (st' = st \/ exists n, In n p /\ st' = n_qe n).
