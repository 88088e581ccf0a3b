(** Specification for the stand-alone quantisers in double precision (C213). *)
From Coq Require Import QArith Qabs ZArith.
Open Scope Z_scope.

(** The time [t] moved to a nearest step k, up to rounding, where every grid of [m] steps is laid out as [n]
    steps: each whole grid before it adds n - m steps. *)
Definition landed (m n : Z) (step t q : Q) : Prop :=
  exists k, 0 <= k /\ (Qabs (inject_Z k * step - t) <= step * (1 # 2) + t * (1 # 2 ^ 50))%Q /\
    (Qabs (q - inject_Z (k + k / m * (n - m)) * step) <= (t + step) * (1 # 2 ^ 47))%Q.
