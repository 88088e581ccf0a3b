(** Specification for FloatIntervalTree: set semantics, endpoint counts, search trees. *)
From Verif Require Import PyBase M_FloatInterval M_Node M_Tree S_FloatInterval.
Open Scope Z_scope.

(** Intervals a caller may pass: ordinary ones, or null ones (rejected by the tree). *)
Definition null_or_ordinary (i : fiv) : Prop := f_end i <= f_begin i \/ ordinary i.
Definition op_ok (o : t_op) : Prop :=
  match o with
  | TAdd i | TDiscard i | TRemove i => null_or_ordinary i
  | TUpdate l | TDiffUpdate l => Forall null_or_ordinary l
  | _ => True
  end.

(** The intervals [update] gets to before it raises: those preceding the first null one. *)
Fixpoint before_null (l : list fiv) : list fiv :=
  match l with [] => [] | i :: r => if f_end i <=? f_begin i then [] else i :: before_null r end.

(** Effect of one call on the mathematical set of members. *)
Definition set_after (S : fiv -> Prop) (o : t_op) : fiv -> Prop :=
  match o with
  | TAdd i => fun k => S k \/ (k = i /\ f_begin i < f_end i)
  | TUpdate l => fun k => S k \/ In k (before_null l)
  | TDiscard i => fun k => S k /\ k <> i
  | TDiffUpdate l => fun k => S k /\ ~ In k l
  | TClear => fun _ => False
  | TRemove _ | TMergeOverlaps _ | TMergeEquals | TMergeNeighbors _ _ => S
  end.
Definition set_after_all (ops : list t_op) : fiv -> Prop :=
  fold_left set_after ops (fun _ => False).

(** [l] lists the set [S] without repetition. *)
Definition lists (l : list fiv) (S : fiv -> Prop) : Prop := NoDup l /\ forall k, In k l <-> S k.

(** Number of endpoints equal to time [k] among the intervals [l]. *)
Definition endpoint_count (l : list fiv) (k : Z) : Z :=
  Z.of_nat (List.length (filter (fun i => f_begin i =? k) l) +
            List.length (filter (fun i => f_end i =? k) l)).

(** All keys of the nodes of a subtree. *)
Fixpoint keys (t : node) : list Z :=
  match t with Nil => [] | Nd x _ l r _ _ => keys l ++ x :: keys r end.
Fixpoint search_tree (t : node) : Prop :=
  match t with
  | Nil => True
  | Nd x _ l r _ _ =>
    (forall k, In k (keys l) -> k <= x) /\ (forall k, In k (keys r) -> x <= k) /\
    search_tree l /\ search_tree r
  end.
(** True height, and the recorded depth and balance being right everywhere. *)
Fixpoint height (t : node) : Z :=
  match t with Nil => 0 | Nd _ _ l r _ _ => 1 + Z.max (height l) (height r) end.
Fixpoint records_right (t : node) : Prop :=
  match t with
  | Nil => True
  | Nd _ _ l r d b => d = height t /\ b = height r - height l /\ records_right l /\ records_right r
  end.
Fixpoint balanced (t : node) : Prop :=
  match t with
  | Nil => True
  | Nd _ _ l r _ _ => Z.abs (height r - height l) <= 1 /\ balanced l /\ balanced r
  end.
(** Every node holds exactly one interval and is keyed by its begin. *)
Fixpoint one_per_node (t : node) : Prop :=
  match t with
  | Nil => True
  | Nd x s l r _ _ => (exists i, s = [i] /\ f_begin i = x) /\ one_per_node l /\ one_per_node r
  end.

(** [a] is directly followed by [b] in the list. *)
Definition adjacent (l : list fiv) (a b : fiv) : Prop := exists l1 l2, l = l1 ++ a :: b :: l2.

(** Documented meaning of a point query: the members whose half-open span holds [p]. *)
Definition members_at (t : tree) (p : Z) (i : fiv) : Prop := t_contains t i = true /\ in_half_open i p.

(** A history of insertions only. *)
Definition insert_only (o : t_op) : Prop :=
  match o with TAdd _ | TUpdate _ => op_ok o | _ => False end.

(** Outcome of a call, as a function of the arguments alone. *)
Definition expected_outcome (o : t_op) : option (res unit) :=
  match o with
  | TAdd i => Some (if f_end i <=? f_begin i then Err ValueError else Ok tt)
  | TUpdate l => Some (if existsb (fun i => f_end i <=? f_begin i) l then Err ValueError else Ok tt)
  | TDiscard _ | TDiffUpdate _ | TClear => Some (Ok tt)
  | TRemove _ => Some (Err ValueError)
  | _ => None
  end.

(** [b] is the member that follows [a] when the members are sorted by (begin, end, data). *)
Definition before (a b : fiv) : Prop :=
  f_begin a < f_begin b \/ (f_begin a = f_begin b /\ f_end a < f_end b) \/
  (f_begin a = f_begin b /\ f_end a = f_end b /\ d_ltb (f_data a) (f_data b) = true).
Definition next_member (t : tree) (a b : fiv) : Prop :=
  t_contains t a = true /\ t_contains t b = true /\ before a b /\
  forall c, t_contains t c = true -> ~ (before a c /\ before c b).
(** merge_neighbors' criterion: a gap of at most [d]; overlapping neighbours count unless strict. *)
Definition neighbours (d : Z) (strict : bool) (a b : fiv) : Prop :=
  f_begin b - f_end a <= d /\ (strict = true -> f_end a <= f_begin b).
