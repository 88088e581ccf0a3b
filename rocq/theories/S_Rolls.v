(** Specification for piano rolls and pitch class statistics. *)
From Verif Require Import PyBase M_Rolls.
Open Scope Q_scope.

(** Entry of a matrix; 0 outside it (an instrument whose roll is shorter is silent afterwards). *)
Definition entry (m : list (list Q)) (i j : nat) : Q := nth j (nth i m []) 0.
(** A sum over a list, and over the numbers below n. *)
Definition sum_of {A} (f : A -> Q) (l : list A) : Q := fold_right (fun a s => f a + s) 0 l.
Definition sum_below (n : nat) (f : nat -> Q) : Q := sum_of f (seq 0 n).
(** r rows of c columns. *)
Definition shape (r c : nat) (m : list (list Q)) : Prop := List.length m = r /\ Forall (fun row => List.length row = c) m.
Definition roll_ok (m : mat) : Prop := shape 128 (m_cols m) (m_rows m).
