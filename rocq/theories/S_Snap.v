(** Specification for grouping notes in double precision. *)
From Coq Require Import QArith Qabs.
From Verif Require Import PyBase M_Note M_Seq S_Seq M_Chord S_Graph M_Float.
Open Scope Z_scope.

(** [x] is a double. *)
Definition is_double (x : Q) : Prop := (fl x == x)%Q.
(** [x >= 0] is further from every half-integer than a rounding error of [x]. *)
Definition off_half (x : Q) : Prop := forall j : Z, (x * (1 # 2 ^ 53) < Qabs (x - (inject_Z j + (1 # 2))))%Q.
(** The start [s] is clear of the borders between two multiples of [tol], and the multiple next to it,
    in hundredths, clear of the borders between two hundredths. *)
Definition clear (tol s : Q) : Prop :=
  off_half (s / tol) /\ (forall m, nearest_even (s / tol) m -> off_half (inject_Z m * tol * 100)).
(** CPython's hash applied to the double nearest to an exact time. *)
Definition in_doubles (e : env) : env := mkEnv (fun a => e_thash e (fl a)) (e_shash e) (e_order e).
(** No two different times among [times] hash to the same number. *)
Definition no_collision (e : env) (times : Q -> Prop) : Prop :=
  forall a b, times a -> times b -> e_thash e a = e_thash e b -> (a == b)%Q.
