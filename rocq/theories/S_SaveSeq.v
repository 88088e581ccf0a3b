(** Specification for saving one track. *)
From Coq Require Import Qabs.
From Verif Require Import PyBase M_Note S_Note M_Load S_Song.
Open Scope Z_scope.

(** 120 quarters a minute, 220 ticks a quarter: 440 ticks a second. *)
Definition clock440 (k : Z) : Q := inject_Z k / 440.
(** A note and its ticks: the nearest ones. *)
Definition ticks_note (n : note) (w : pnote) : Prop :=
  nearest clock440 (n_start n) (pn_start w) /\ nearest clock440 (n_end n) (pn_end w) /\ pn_vel w = n_velocity n /\ pn_pitch w = n_pitch n.
(** Notes that can be told apart in a file: they last more than a tick, those of one pitch start more than a
    tick apart; all in the first two million seconds. *)
Definition clear_notes (l : list note) : Prop :=
  (forall n, In n l -> in_ranges n /\ 0 < n_velocity n /\ (0 <= n_start n)%Q /\ (1 / 440 < n_end n - n_start n)%Q /\ (n_end n < 2000000)%Q) /\
  (forall l1 a l2 b l3, l = l1 ++ a :: l2 ++ b :: l3 -> n_pitch a = n_pitch b -> (1 / 440 < Qabs (n_start a - n_start b))%Q).
