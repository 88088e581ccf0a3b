(** Specifications for the stand-alone quantisers (C59, C60, C99-C103). *)
From Coq Require Import QArith Qabs.
From Verif Require Import PyBase.
Open Scope Z_scope.

(** [k] is the integer part of the non-negative number [x]. *)
Definition int_part (x : Q) (k : Z) : Prop := (inject_Z k <= x)%Q /\ (x < inject_Z k + 1)%Q.
(** [r] is [x] rounded to an integer by magnitude: away from zero if the fractional part of |x|
    is at least [th], toward zero otherwise. *)
Definition rounded_at (th x : Q) (r : Z) : Prop :=
  exists k m, int_part (Qabs x) k /\
    (((th <= Qabs x - inject_Z k)%Q /\ m = k + 1) \/ ((Qabs x - inject_Z k < th)%Q /\ m = k)) /\
    (((0 <= x)%Q /\ r = m) \/ ((x < 0)%Q /\ r = - m)).
(** [r] is the smallest integer that is at least [x]. *)
Definition rounded_up (x : Q) (r : Z) : Prop := (x <= inject_Z r)%Q /\ (inject_Z r < x + 1)%Q.
(** [r] is an integer nearest to [x], the one farther from zero of two. *)
Definition nearest_away (x : Q) (r : Z) : Prop :=
  (Qabs (x - inject_Z r) <= 1 # 2)%Q /\ ((Qabs (x - inject_Z r) == 1 # 2)%Q -> (Qabs x < Qabs (inject_Z r))%Q).
(** [lt] compares like < on numbers. *)
Definition orders {D} (lt : D -> D -> bool) : Prop :=
  (forall a b, lt a b = true -> lt b a = false) /\
  (forall a b c, lt a b = false -> lt b c = false -> lt a c = false).
(** [g] is the first entry of [grid] that no other entry beats in distance to [n]. *)
Definition first_nearest {A D} (lt : D -> D -> bool) (metric : A -> A -> D) (grid : list A) (n g : A) : Prop :=
  exists j, nth_error grid j = Some g /\
    (forall h, In h grid -> lt (metric n h) (metric n g) = false) /\
    (forall i h, (i < j)%nat -> nth_error grid i = Some h -> lt (metric n g) (metric n h) = true).
