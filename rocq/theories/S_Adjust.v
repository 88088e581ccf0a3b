(** Specification vocabulary for moving the events of a piece along a time map (adjust_times). *)
From Coq Require Import Sorted Permutation.
From Verif Require Import PyBase.
Open Scope Q_scope.

(** Position [i] holds [x], and no earlier position holds that value. *)
Definition first_at (orig : list Q) (i : nat) (x : Q) : Prop :=
  nth_error orig i = Some x /\ forall j x', (j < i)%nat -> nth_error orig j = Some x' -> ~ x' == x.
(** The breakpoints in force: every original time once, ascending; its new time is the largest one
    given so far (reading originals in ascending order, repeated originals at their first place). *)
Definition breakpoints (orig new : list Q) (m : list (Q * Q)) : Prop :=
  StronglySorted (fun a b => fst a < fst b) m /\
  (forall x, In x orig -> exists x' y, In (x', y) m /\ x' == x) /\
  forall x y, In (x, y) m ->
    (exists i, first_at orig i x) /\
    (exists i x', first_at orig i x' /\ x' <= x /\ nth_error new i = Some y) /\
    (forall i x', first_at orig i x' -> x' <= x -> exists y', nth_error new i = Some y' /\ y' <= y).
(** Breakpoints ascend strictly in the first, weakly in the second component. *)
Definition ascending (m : list (Q * Q)) : Prop :=
  m <> [] /\ StronglySorted (fun a b => fst a < fst b /\ snd a <= snd b) m.
(** [y] is the image of [x]: linear between neighbouring breakpoints, constant outside. *)
Definition image (m : list (Q * Q)) (x y : Q) : Prop :=
  (forall x0 y0 r, m = (x0, y0) :: r -> x <= x0 -> y == y0) /\
  (forall x1 y1 r, m = r ++ [(x1, y1)] -> x1 <= x -> y == y1) /\
  (forall l r x0 y0 x1 y1, m = l ++ (x0, y0) :: (x1, y1) :: r -> x0 <= x <= x1 ->
     (y - y0) * (x1 - x0) == (y1 - y0) * (x - x0)).
(** [l'] is [l] with the elements failing [keep] left out and the others changed as [R] says. *)
Inductive carried {A B} (keep : A -> Prop) (R : A -> B -> Prop) : list A -> list B -> Prop :=
| carried_nil : carried keep R [] []
| carried_keep : forall a b l l', keep a -> R a b -> carried keep R l l' -> carried keep R (a :: l) (b :: l')
| carried_drop : forall a l l', ~ keep a -> carried keep R l l' -> carried keep R (a :: l) l'.
(** A list of timed events moved along [f]: in time order; all that land strictly between [lo] and
    [hi] stay; of those landing on [lo] only the latest one does (the last one listed among equals);
    the rest is gone. *)
Definition retimed {A} (time : A -> Q) (set_time : A -> Q -> A) (f : Q -> Q) (lo hi : Q) (l l' : list A) : Prop :=
  exists h t, l' = h ++ t /\ StronglySorted (fun a b => time a <= time b) l' /\
  Permutation t (map (fun e => set_time e (f (time e))) (filter (fun e => Qltb lo (f (time e)) && Qltb (f (time e)) hi) l)) /\
  ((h = [] /\ forall e, In e l -> ~ f (time e) == lo) \/
   exists l1 e l2, l = l1 ++ e :: l2 /\ f (time e) == lo /\ h = [set_time e (f (time e))] /\
     (forall e', In e' l1 -> f (time e') == lo -> time e' <= time e) /\
     (forall e', In e' l2 -> f (time e') == lo -> time e' < time e)).
(** The breakpoints that make progress: the first, and those that differ from their predecessor in
    both times. *)
Definition moving (m : list (Q * Q)) : list (Q * Q) :=
  match m with
  | [] => []
  | c :: r => c :: map snd (filter (fun p => negb (Qeq_bool (snd (fst p)) (snd (snd p))) && negb (Qeq_bool (fst (fst p)) (fst (snd p)))) (combine m r))
  end.
(** A tempo list without the entries that repeat the tempo already in force. *)
Fixpoint changes (q : Q) (l : list (Q * Q)) : list (Q * Q) :=
  match l with
  | [] => []
  | c :: r => if Qeq_bool (snd c) q then changes q r else c :: changes (snd c) r
  end.
(** Tick scale [s] (tick, seconds per tick) stands for tempo entry [c]: the right scale, on a tick at
    most half a tick from the exact position [g] of the entry's time. *)
Definition tick_at (r : Z) (g : Q -> Q) (c : Q * Q) (s : Z * Q) : Prop :=
  snd s == 60 / (snd c * inject_Z r) /\ Qabsb (inject_Z (fst s) - g (fst c)) <= 1 # 2.
(** The tempo list from time 0 on: 120 until the first entry, unless that is at 0. *)
Definition lead (N : list (Q * Q)) : list (Q * Q) :=
  match N with [] => [(0, 120)] | (t, q) :: _ => if Qeq_bool t 0 then N else (0, 120) :: N end.
(** Both ends of the breakpoints. *)
Definition begins (m : list (Q * Q)) : Q * Q := hd (0, 0) m.
Definition ends (m : list (Q * Q)) : Q * Q := last m (0, 0).
