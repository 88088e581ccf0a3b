(** Specification vocabulary for ticks and tempo. *)
From Coq Require Import Sorted.
From Verif Require Import PyBase M_Ticks.
Open Scope Z_scope.

(** The value given by the last entry of [l] at or before tick [j], [d] if there is none. *)
Definition at_tick {A} (l : list (Z * A)) (j : Z) (d : A) : A :=
  fold_left (fun v e => if fst e <=? j then snd e else v) l d.
(** f(0) + ... + f(k-1). *)
Definition sum_to (f : Z -> Q) (k : Z) : Q :=
  fold_right Qplus 0%Q (map (fun j => f (Z.of_nat j)) (seq 0 (Z.to_nat k))).

(** Tempo events as they occur in a file: ticks ascending from 0, positive tempo (microseconds
    per quarter note). *)
Definition tempo_events (evs : list (Z * Z)) : Prop :=
  StronglySorted (fun a b => fst a <= fst b) evs /\ (forall e, In e evs -> 0 <= fst e /\ 0 < snd e).
(** Seconds lasted by tick [j]: tempo in force / (10^6 * resolution), 120 bpm before any event. *)
Definition tick_length (resolution : Z) (evs : list (Z * Z)) (j : Z) : Q :=
  (inject_Z (at_tick evs j 500000%Z) / (1000000 * inject_Z resolution))%Q.
