(** Specification vocabulary for adjust_times in double precision. *)
From Coq Require Import QArith List Sorted Permutation.
From Verif Require Import PyBase M_Float S_Adjust.
Import ListNotations.
Open Scope Q_scope.

(** [a] is [b] up to the fraction [e] of [b]. *)
Definition within (e a b : Q) : Prop := Qabsb (a - b) <= b * e.
(** What interpolating may cost, relative to the exact image: less than one part in 10^14. *)
Definition warp_error : Q := 1 / inject_Z (2 ^ 48).
(** [g] carries times along the breakpoints [m] as doubles allow: breakpoints exactly, everything
    outside exactly to the ends, everything else to its exact image up to [warp_error]; within one
    zone, its start included and its end not, it keeps the order and stays above the zone's start. *)
Definition warps (m : list (Q * Q)) (g : Q -> Q) : Prop :=
  (forall x y x', In (x, y) m -> x' == x -> g x' = y) /\
  (forall x, x <= fst (begins m) -> g x = snd (begins m)) /\
  (forall x, fst (ends m) <= x -> g x = snd (ends m)) /\
  (forall x y, image m x y -> within warp_error (g x) y) /\
  (forall l r x0 y0 x1 y1 x x', m = l ++ (x0, y0) :: (x1, y1) :: r -> x0 <= x -> x <= x' -> x' < x1 -> y0 <= g x /\ g x <= g x').
(** A list of timed events moved along [g]: taken in time order, those landing strictly between [lo]
    and [hi] stay in that order; of those landing on [lo] only the latest one does (the last one
    listed among equals); the rest is gone. *)
Definition retimed_in_order {A} (time : A -> Q) (set_time : A -> Q -> A) (g : Q -> Q) (lo hi : Q) (l l' : list A) : Prop :=
  exists s h, Permutation s l /\ StronglySorted (fun a b => time a <= time b) s /\
  l' = h ++ map (fun e => set_time e (g (time e))) (filter (fun e => Qltb lo (g (time e)) && Qltb (g (time e)) hi) s) /\
  ((h = [] /\ forall e, In e l -> ~ g (time e) == lo) \/
   exists l1 e l2, l = l1 ++ e :: l2 /\ g (time e) == lo /\ h = [set_time e (g (time e))] /\
     (forall e', In e' l1 -> g (time e') == lo -> time e' <= time e) /\
     (forall e', In e' l2 -> g (time e') == lo -> time e' < time e)).
(** Time order up to [warp_error] twice over. *)
Definition nearly_ordered {A} (time : A -> Q) (l : list A) : Prop := StronglySorted (fun a b => time a <= time b * (1 + 4 * warp_error)) l.
(** Tempo entry [c] is [c'] up to rounding, in time and tempo. *)
Definition entry_within (c c' : Q * Q) : Prop := within warp_error (fst c) (fst c') /\ within warp_error (snd c) (snd c').
(** Usable new times: non-negative doubles. *)
Definition times_used (new : list Q) : Prop := forall y, In y new -> 0 <= y /\ fl y == y.
(** Tick scale [s] belongs to tempo [q] at resolution [r]. *)
Definition scale_of (r : Z) (q s : Q) : Prop := within warp_error s (60 / (q * inject_Z r)).
