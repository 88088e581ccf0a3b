(** Specification vocabulary for the tick scales written by adjust_times in double precision. *)
From Coq Require Import QArith List.
From Verif Require Import PyBase S_AdjustF.
Import ListNotations.
Open Scope Q_scope.

(** The scales written for the tempo entries [l], scale [cur] being in force before: an entry either
    finds its scale in force already, or gets a different one, on a tick that is the nearest one to
    [g] (the exact position of its time, in ticks) up to [d]. *)
Inductive placed (r : Z) (g : Q -> Q) (d : Q) : Q -> list (Q * Q) -> list (Z * Q) -> Prop :=
| placed_nil : forall cur, placed r g d cur [] []
| placed_same : forall cur c l w, scale_of r (snd c) cur -> placed r g d cur l w -> placed r g d cur (c :: l) w
| placed_new : forall cur c l k s w, scale_of r (snd c) s -> ~ s == cur -> Qabsb (inject_Z k - g (fst c)) <= (1 # 2) + d ->
    placed r g d s l w -> placed r g d cur (c :: l) ((k, s) :: w).
(** What rounding may cost the position of a tick: [n] tempo entries until time [T], never more than
    [q] quarters a minute, [r] ticks a quarter. *)
Definition tick_slack (n : nat) (T q : Q) (r : Z) : Q := 128 * inject_Z (Z.of_nat n) * (T * q * inject_Z r / 60) / inject_Z (2 ^ 53).
