(** Specification vocabulary for beats across tempo changes in double precision. *)
From Coq Require Import QArith List.
From Verif Require Import PyBase M_Beats S_Beats.
Import ListNotations.
Open Scope Q_scope.

(** The meter is settled before [start], at [k] beats a quarter. *)
Definition settled (sigs : list tsig) (start k : Q) : Prop :=
  (forall s, In s sigs -> ts_time s <= start) /\ (forall s, in_force sigs s start -> beats_per_quarter s k) /\ (sigs = [] -> k == 1).
(** Every beat of the map, at [k] beats a quarter, lasts between [lo] and [hi] seconds. *)
Definition beat_lengths (m : list (Q * Q)) (k lo hi : Q) : Prop := forall c, In c m -> lo <= 60 / (k * snd c) /\ 60 / (k * snd c) <= hi.
(** What [n] tempo changes may cost one beat, in beats. *)
Definition slack (stop lo hi : Q) (n : nat) : Q :=
  256 * (inject_Z (Z.of_nat n) + 2) * ((stop + 8 * hi) / lo) * (hi / lo) / inject_Z (2 ^ 53).
