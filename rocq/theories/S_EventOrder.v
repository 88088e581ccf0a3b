(** Specification for the order of timed events. *)
From Verif Require Import PyBase.
Open Scope Q_scope.

(** Two times the library takes for the same (math.isclose with its defaults): they differ by at
    most a billionth of the larger magnitude. *)
Definition near (a b : Q) : Prop := 1000000000 * Qabsb (a - b) <= Qmaxb (Qabsb a) (Qabsb b).

(** One event comes before another: its time is earlier, or the times are the same and its
    sequence number is smaller. *)
Definition precedes (ta : Q) (sa : Z) (tb : Q) (sb : Z) : Prop :=
  (near ta tb /\ (sa < sb)%Z) \/ (~ near ta tb /\ ta < tb).
