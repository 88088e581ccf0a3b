(** Model of neural_graph_composer/interval/intervaltree.py and node.py, third part: the score of a tree
    and the remaining accessors of FloatIntervalTree.  floor(log(m, 2)) is the exact integer logarithm
    (CPython's double agrees below 2^47). *)
From Coq Require Import QArith.
From Verif Require Import PyBase M_FloatInterval M_Node M_Tree.
Open Scope Z_scope.

(** node.py:578-594 depth_score_helper (0 for None: the child is not visited). *)
Fixpoint nd_depth_score_helper (t : node) (d dopt : Z) : Z :=
  match t with
  | Nil => 0
  | Nd _ s l r _ _ =>
    let di := d - dopt in
    let count := if 0 <? di then di * Z.of_nat (List.length s) else 0 in
    let count := count + nd_depth_score_helper r (d + 1) dopt in
    count + nd_depth_score_helper l (d + 1) dopt
  end.
(** node.py:564-576 depth_score. *)
Definition nd_depth_score (t : node) (n m : Z) : res Q :=
  if n =? 0 then Ok 0%Q
  else let dopt := 1 + Z.log2 m in
       if 1 + n - dopt =? 0 then Err ZeroDivisionError
       else Ok (1 / inject_Z (1 + n - dopt) * inject_Z (nd_depth_score_helper t 1 dopt))%Q.

(** intervaltree.py:1005-1037 the report of score: depth, s_center, _cumulative. *)
Record score_report : Type := mkScore { sc_depth : Q; sc_center : Q; sc_cumulative : Q }.
(** intervaltree.py:1012-1037 score, with more than two members (count_nodes of None: AttributeError). *)
Definition t_score_report (t : tree) : res score_report :=
  let n := Z.of_nat (t_len t) in
  if is_nil (top_node t) then Err AttributeError
  else let m := Z.of_nat (nd_size (top_node t)) in
       bind (nd_depth_score (top_node t) n m) (fun d =>
       let c := (inject_Z (n - m) / inject_Z (n - 1))%Q in
       Ok (mkScore d c (Qmaxb d c))).
(** intervaltree.py:1005-1037 score() without full_report. *)
Definition t_score (t : tree) : res Q :=
  if Nat.leb (t_len t) 2 then Ok 0%Q else bind (t_score_report t) (fun r => Ok (sc_cumulative r)).

(** The module defines neither IntervalTree nor Interval: using one of the names raises.
    [intervaltree.py:25-45] *)
Definition mk_tree (ivs : list fiv) : res tree := Err NameError.
(** intervaltree.py:25-45 *)
Definition mk_interval (b e : Z) (data : option Z) : res fiv := Err NameError.
(** intervaltree.py:366-375 difference. *)
Definition t_difference (t u : tree) : res tree :=
  mk_tree (filter (fun i => negb (t_contains u i)) (all_intervals t)).
(** intervaltree.py:384-389 union. *)
Definition t_union (t u : tree) : res tree := mk_tree (set_update (all_intervals t) (all_intervals u)).
(** intervaltree.py:391-401 intersection. *)
Definition t_intersection (t u : tree) : res tree :=
  let (shorter, longer) := if Nat.ltb (t_len u) (t_len t) then (u, t) else (t, u) in
  mk_tree (filter (t_contains longer) (all_intervals shorter)).
(** intervaltree.py:412-420 symmetric_difference. *)
Definition t_symmetric_difference (t u : tree) : res tree :=
  mk_tree (filter (fun i => negb (t_contains u i)) (all_intervals t) ++
           filter (fun i => negb (t_contains t i)) (all_intervals u)).
(** intervaltree.py:218-224 from_tuples. *)
Definition t_from_tuples (l : list (Z * Z * option Z)) : res tree :=
  bind (fold_left (fun acc p => bind acc (fun ivs => bind (mk_interval (fst (fst p)) (snd (fst p)) (snd p)) (fun i => Ok (ivs ++ [i])))) l (Ok []))
       mk_tree.
(** intervaltree.py:898-905 range. *)
Definition t_range (t : tree) : res fiv := mk_interval (t_begin t) (t_end t) None.
(** intervaltree.py:1093-1099 containsi. *)
Definition t_containsi (t : tree) (b e : Z) (data : option Z) : res bool :=
  bind (mk_interval b e data) (fun i => Ok (t_contains t i)).
(** intervaltree.py:339-344 removei. *)
Definition t_removei (t : tree) (b e : Z) (data : option Z) : res unit * tree :=
  match mk_interval b e data with Err x => (Err x, t) | Ok i => t_remove t i end.
(** intervaltree.py:359-364 discardi. *)
Definition t_discardi (t : tree) (b e : Z) (data : option Z) : res unit * tree :=
  match mk_interval b e data with Err x => (Err x, t) | Ok i => t_discard t i end.
(** intervaltree.py:513-532 find_nested: the sort key Interval.length (528) is evaluated first. *)
Definition t_find_nested (t : tree) : res (list (fiv * list fiv)) :=
  bind (mk_interval 0 0 None) (fun _ => Ok []).
(** intervaltree.py:1118-1127 __eq__: isinstance(other, IntervalTree) is evaluated first. *)
Definition t_eq (t u : tree) : res bool := bind (mk_tree []) (fun _ => Ok false).

(** intervaltree.py:1062-1070 __setitem__ with a slice, by addi (308-313). *)
Definition t_setitem (t : tree) (start stop : Z) (value : option Z) : res unit * tree :=
  t_add t (mkF start stop value).
(** intervaltree.py:790-796 items, 1101-1107 __iter__. *)
Definition t_items (t : tree) : list fiv := set_update [] (all_intervals t).
(** intervaltree.py:798-804 is_empty. *)
Definition t_is_empty (t : tree) : bool := Nat.eqb 0 (t_len t).
(** intervaltree.py:534-547 overlaps: a range, a number, or an interval. *)
Inductive overlap_arg : Type := ORange (b e : Z) | OPoint (p : Z) | OInterval (i : fiv).
(** intervaltree.py:534-547 *)
Definition t_overlaps (t : tree) (a : overlap_arg) : bool :=
  match a with
  | ORange b e => t_overlaps_range t b e
  | OPoint p => t_overlaps_point t p
  | OInterval i => t_overlaps_range t (f_begin i) (f_end i)
  end.
(** intervaltree.py:1129-1137 __repr__: the intervals shown, in order. *)
Definition t_repr (t : tree) : list fiv := py_sort f_ltb (all_intervals t).
