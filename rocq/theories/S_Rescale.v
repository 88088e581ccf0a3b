(** Specification for velocities. *)
From Coq Require Import Qround Qabs.
From Verif Require Import PyBase.
Open Scope Z_scope.

Definition smallest (m : Z) (l : list Z) : Prop := In m l /\ forall x, In x l -> m <= x.
Definition largest (m : Z) (l : list Z) : Prop := In m l /\ forall x, In x l -> x <= m.
(** [w] is the whole part of a number within one part in 2^49 of [x], at most 127. *)
Definition about (x : Q) (w : Z) : Prop :=
  exists y, (Qabs (y - x) <= x / inject_Z (2 ^ 49))%Q /\ w = Z.min 127 (Qfloor y).
