(** Model of neural_graph_composer/interval/intervaltree.py (FloatIntervalTree).
    sortedcontainers.SortedDict (external) is an association list in ascending key order.
    Each call returns its outcome and the state afterwards. *)
From Verif Require Import PyBase M_FloatInterval M_Node.
Open Scope Z_scope.

(** intervaltree.py:239-241 attributes. *)
Record tree : Type := mkT { all_intervals : list fiv; top_node : node; bounds : list (Z * Z) }.

(** sortedcontainers.SortedDict lookup, store, delete on an ascending list. [intervaltree.py:241-284] *)
Fixpoint bt_get (t : list (Z * Z)) (k : Z) : option Z :=
  match t with [] => None | (a, n) :: r => if a =? k then Some n else bt_get r k end.
(** intervaltree.py:241-284 *)
Fixpoint bt_set (t : list (Z * Z)) (k n : Z) : list (Z * Z) :=
  match t with
  | [] => [(k, n)]
  | (a, m) :: r => if a =? k then (a, n) :: r
                   else if k <? a then (k, n) :: t else (a, m) :: bt_set r k n
  end.
(** intervaltree.py:241-284 *)
Definition bt_del (t : list (Z * Z)) (k : Z) : list (Z * Z) :=
  filter (fun p => negb (fst p =? k)) t.

(** intervaltree.py:260-263 / 265-268. *)
Definition bt_inc (t : list (Z * Z)) (k : Z) : list (Z * Z) :=
  match bt_get t k with Some n => bt_set t k (n + 1) | None => bt_set t k 1 end.
(** intervaltree.py:276-279 / 281-284 (KeyError if absent). *)
Definition bt_dec (t : list (Z * Z)) (k : Z) : res (list (Z * Z)) :=
  match bt_get t k with
  | None => Err KeyError
  | Some n => Ok (if n =? 1 then bt_del t k else bt_set t k (n - 1))
  end.
(** intervaltree.py:254-268 _add_boundaries, 270-284 _remove_boundaries. *)
Definition add_boundaries (t : list (Z * Z)) (i : fiv) : list (Z * Z) :=
  bt_inc (bt_inc t (f_begin i)) (f_end i).
(** intervaltree.py:254-268, 270-284 *)
Definition remove_boundaries (t : list (Z * Z)) (i : fiv) : res (list (Z * Z)) :=
  bind (bt_dec t (f_begin i)) (fun t' => bt_dec t' (f_end i)).

(** intervaltree.py:226-243 __init__. *)
Definition t_init (ivs : list fiv) : res tree :=
  let s := set_update [] ivs in
  if existsb f_is_null s then Err ValueError
  else bind (from_intervals s) (fun top =>
       Ok (mkT s top (fold_left add_boundaries s []))).
(** intervaltree.py:226-243 *)
Definition t_empty : tree := mkT [] Nil [].

(** intervaltree.py:1078-1089 __contains__, 1110-1116 __len__. *)
Definition t_contains (t : tree) (i : fiv) : bool := set_mem i (all_intervals t).
(** intervaltree.py:1078-1089, 1110-1116 *)
Definition t_len (t : tree) : nat := List.length (all_intervals t).

(** intervaltree.py:286-305 add (308-313 addi builds the interval and calls it). *)
Definition t_add (t : tree) (i : fiv) : res unit * tree :=
  if t_contains t i then (Ok tt, t)
  else if f_is_null i then (Err ValueError, t)
  else
    match (if is_nil (top_node t) then Ok (from_interval i) else nd_add (top_node t) i) with
    | Err e => (Err e, t)
    | Ok n => (Ok tt, mkT (set_add i (all_intervals t)) n (add_boundaries (bounds t) i))
    end.

(** intervaltree.py:316-323 update: stops at the first exception. *)
Fixpoint t_update (t : tree) (ivs : list fiv) : res unit * tree :=
  match ivs with
  | [] => (Ok tt, t)
  | i :: r => match t_add t i with
              | (Ok _, t') => t_update t' r
              | (Err e, t') => (Err e, t')
              end
  end.

(** intervaltree.py:325-337 remove. *)
Definition t_remove (t : tree) (i : fiv) : res unit * tree :=
  if negb (t_contains t i) then (Err ValueError, t)
  else match nd_remove (top_node t) i with
       | Err e => (Err e, t)
       | Ok n =>
         let s := set_discard i (all_intervals t) in
         match remove_boundaries (bounds t) i with
         | Err e => (Err e, mkT s n (bounds t))
         | Ok b => (Ok tt, mkT s n b)
         end
       end.

(** intervaltree.py:347-357 discard. *)
Definition t_discard (t : tree) (i : fiv) : res unit * tree :=
  if negb (t_contains t i) then (Ok tt, t)
  else
    let s := set_discard i (all_intervals t) in
    match nd_discard (top_node t) i with
    | Err e => (Err e, mkT s (top_node t) (bounds t))
    | Ok n => match remove_boundaries (bounds t) i with
              | Err e => (Err e, mkT s n (bounds t))
              | Ok b => (Ok tt, mkT s n b)
              end
    end.

(** intervaltree.py:377-382 difference_update(other). *)
Fixpoint t_difference_update (t : tree) (ivs : list fiv) : res unit * tree :=
  match ivs with
  | [] => (Ok tt, t)
  | i :: r => match t_discard t i with
              | (Ok _, t') => t_difference_update t' r
              | (Err e, t') => (Err e, t')
              end
  end.

(** intervaltree.py:506-511 clear. *)
Definition t_clear (t : tree) : res unit * tree := (Ok tt, t_empty).

(** intervaltree.py:600-659 merge_overlaps with data_initializer=None: the sorted
    members are scanned; [lower] is merged[-1].  A pair to merge reaches line 653, where the
    name Interval is undefined: NameError before self is modified. *)
Fixpoint merge_scan (should_merge : fiv -> fiv -> bool) (lower : fiv) (rest : list fiv) : bool :=
  match rest with
  | [] => false
  | higher :: r => if should_merge lower higher then true else merge_scan should_merge higher r
  end.
(** intervaltree.py:600-659, 653 *)
Definition t_merge_with (should_merge : fiv -> fiv -> bool) (t : tree) : res unit * tree :=
  match py_sort f_ltb (all_intervals t) with
  | [] => (Ok tt, t)
  | first :: rest =>
    if merge_scan should_merge first rest then (Err NameError, t)
    else match t_init (first :: rest) with
         | Ok t' => (Ok tt, t')
         | Err e => (Err e, t)
         end
  end.
(** intervaltree.py:600-659, 653 *)
Definition t_merge_overlaps (strict : bool) : tree -> res unit * tree :=
  t_merge_with (fun lower higher =>
    (f_begin higher <? f_end lower) || (negb strict && (f_begin higher =? f_end lower))).
(** intervaltree.py:661-716 merge_equals with data_initializer=None. *)
Definition t_merge_equals : tree -> res unit * tree :=
  t_merge_with (fun lower higher => f_range_matches higher lower).
(** intervaltree.py:718-788 merge_neighbors with data_initializer=None. *)
Definition t_merge_neighbors (distance : Z) (strict : bool) : tree -> res unit * tree :=
  t_merge_with (fun lower higher =>
    let margin := f_begin higher - f_end lower in
    (margin <=? distance) && negb (strict && (margin <? 0))).

(** intervaltree.py:880-896 begin, end; 907-915 span. *)
Definition t_begin (t : tree) : Z := match bounds t with [] => 0 | (k, _) :: _ => k end.
(** intervaltree.py:880-896, 907-915 *)
Definition t_end (t : tree) : Z := match rev (bounds t) with [] => 0 | (k, _) :: _ => k end.
(** intervaltree.py:880-896, 907-915 *)
Definition t_span (t : tree) : Z := if Nat.eqb (t_len t) 0 then 0 else t_end t - t_begin t.

(** intervaltree.py:549-557 overlaps_point, 559-576 overlaps_range. *)
Definition t_overlaps_point (t : tree) (p : Z) : bool :=
  if Nat.eqb (t_len t) 0 then false else nd_contains_point (top_node t) p.
(** intervaltree.py:549-557, 559-576 *)
Definition t_overlaps_range (t : tree) (b e : Z) : bool :=
  if Nat.eqb (t_len t) 0 then false
  else if e <=? b then false
  else t_overlaps_point t b ||
       existsb (fun q => t_overlaps_point t (fst q))
         (filter (fun q => (b <? fst q) && (fst q <? e)) (bounds t)).

(** intervaltree.py:806-817 at(p) and 853-878 overlap(begin, end) with numbers:
    search_point raises AttributeError on a number (node.py:325,327). *)
Definition t_at_number (t : tree) (p : Z) : res (list fiv) :=
  if is_nil (top_node t) then Ok [] else Err AttributeError.
(** intervaltree.py:806-817, 853-878, node.py:325, 327 *)
Definition t_overlap_numbers (t : tree) (b e : Z) : res (list fiv) :=
  if is_nil (top_node t) then Ok []
  else if e <=? b then Ok [] else Err AttributeError.
(** intervaltree.py:1050-1060 tree[p] and tree[b:e] (None bounds: begin()/end()):
    an AttributeError inside the try is caught and at(index) is tried, which raises
    AttributeError again for a number, and for a slice object as well. *)
Definition t_getitem_number (t : tree) (p : Z) : res (list fiv) := t_at_number t p.
(** intervaltree.py:1050-1060 *)
Definition t_getitem_slice (t : tree) (b e : option Z) : res (list fiv) :=
  match b, e with
  | None, None => Ok (all_intervals t)
  | _, _ =>
    let b' := match b with Some v => v | None => t_begin t end in
    let e' := match e with Some v => v | None => t_end t end in
    match t_overlap_numbers t b' e' with
    | Ok s => Ok s
    | Err _ => if is_nil (top_node t) then Ok [] else Err AttributeError
    end
  end.

(** The mutating calls. [intervaltree.py:286-365, 506-511] *)
Inductive t_op : Type :=
| TAdd (i : fiv) | TUpdate (l : list fiv) | TDiscard (i : fiv) | TDiffUpdate (l : list fiv)
| TRemove (i : fiv) | TClear
| TMergeOverlaps (strict : bool) | TMergeEquals | TMergeNeighbors (distance : Z) (strict : bool).
(** intervaltree.py:286-365 *)
Definition t_step (t : tree) (o : t_op) : res unit * tree :=
  match o with
  | TAdd i => t_add t i
  | TUpdate l => t_update t l
  | TDiscard i => t_discard t i
  | TDiffUpdate l => t_difference_update t l
  | TRemove i => t_remove t i
  | TClear => t_clear t
  | TMergeOverlaps s => t_merge_overlaps s t
  | TMergeEquals => t_merge_equals t
  | TMergeNeighbors d s => t_merge_neighbors d s t
  end.
(** intervaltree.py:286-365 *)
Definition t_run (t : tree) (ops : list t_op) : tree :=
  fold_left (fun t o => snd (t_step t o)) ops t.
