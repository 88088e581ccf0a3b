(** Specification for mixing the waveforms of instruments. *)
From Coq Require Import Qabs.
From Verif Require Import PyBase M_Float.
Open Scope list_scope.
Open Scope Q_scope.

(** Double precision or exact arithmetic. *)
Definition rounding (r : Q -> Q) : Prop := r = fl \/ r = (fun x => x).
(** What the instruments that last beyond sample k add up to there, instrument after instrument. *)
Fixpoint heard (r : Q -> Q) (so_far : Q) (ws : list (list Q)) (k : nat) : Q :=
  match ws with
  | [] => so_far
  | w :: ws' => heard r (match nth_error w k with Some x => r (so_far + x) | None => so_far end) ws' k
  end.
Definition heard_at (r : Q -> Q) (ws : list (list Q)) (k : nat) : Q := heard r 0 ws k.
(** The exact sum at sample k; a waveform is silent after its end. *)
Fixpoint total (ws : list (list Q)) (k : nat) : Q :=
  match ws with [] => 0 | w :: ws' => nth k w 0 + total ws' k end.
(** [p] is the peak of the n samples f. *)
Definition peak (f : nat -> Q) (n : nat) (p : Q) : Prop :=
  0 <= p /\ (forall k, (k < n)%nat -> Qabs (f k) <= p) /\ (n <> 0%nat -> exists k, (k < n)%nat /\ Qabs (f k) == p).
(** The length of the longest. *)
Definition longest (ws : list (list Q)) (n : nat) : Prop :=
  (forall w, In w ws -> (List.length w <= n)%nat) /\ (exists w, In w ws /\ List.length w = n).
(** Equal samples: both NaN or equal numbers. *)
Definition same_sample (a b : option Q) : Prop :=
  match a, b with Some x, Some y => x == y | None, None => True | _, _ => False end.
Definition scaled (c : Q) (ws : list (list Q)) : list (list Q) := map (map (fun x => c * x)) ws.
Definition same_result (a b : res (list (option Q))) : Prop :=
  match a, b with Ok l, Ok l' => Forall2 same_sample l l' | Err e, Err e' => e = e' | _, _ => False end.
