(** Model of neural_graph_composer/interval/interval.py (FloatInterval).
    begin/end are integers (see DESIGN.md); [data] is None or a value of one
    totally ordered type, coded as an integer. *)
From Verif Require Import PyBase.
Open Scope Z_scope.

(** interval.py:38-42: namedtuple (begin, end, data=None). *)
Record fiv : Type := mkF { f_begin : Z; f_end : Z; f_data : option Z }.

(** interval.py:126-132 is_null. *)
Definition f_is_null (i : fiv) : bool := f_end i <=? f_begin i.

(** interval.py:134-142 length. *)
Definition f_length (i : fiv) : Z := if f_is_null i then 0 else f_end i - f_begin i.

(** interval.py:80-86 contains_point. *)
Definition f_contains_point (i : fiv) (p : Z) : bool :=
  zclose (f_begin i) p && zclose p (f_end i).

(** interval.py:52-53: overlaps(begin, end) with a range. *)
Definition f_overlaps_range (i : fiv) (b e : Z) : bool :=
  zclose b (f_end i) && (f_begin i <? e).

(** interval.py:54-57: overlaps(interval) delegates to the range form;
    overlaps(point) falls into the except branch, contains_point. *)
Definition f_overlaps_iv (i o : fiv) : bool := f_overlaps_range i (f_begin o) (f_end o).
(** interval.py:54-57 *)
Definition f_overlaps_point (i : fiv) (p : Z) : bool := f_contains_point i p.

(** interval.py:59-78 overlap_size with a range or an interval; with a point that
    overlaps, line 76 reads begin.begin: AttributeError. *)
Definition f_overlap_size_range (i : fiv) (b e : Z) : Z :=
  if f_overlaps_range i b e then Z.min (f_end i) e - Z.max (f_begin i) b else 0.
(** interval.py:59-78, 76 *)
Definition f_overlap_size_iv (i o : fiv) : Z := f_overlap_size_range i (f_begin o) (f_end o).
(** interval.py:59-78, 76 *)
Definition f_overlap_size_point (i : fiv) (p : Z) : res Z :=
  if f_overlaps_point i p then Err AttributeError else Ok 0.

(** interval.py:88-94 range_matches, 96-102 contains_interval. *)
Definition f_range_matches (i o : fiv) : bool :=
  (f_begin i =? f_begin o) && (f_end i =? f_end o).
(** interval.py:88-94, 96-102 *)
Definition f_contains_interval (i o : fiv) : bool :=
  (f_begin i <=? f_begin o) && (f_end o <=? f_end i).

(** interval.py:104-124 distance_to an interval / a point. *)
Definition f_distance_iv (i o : fiv) : Z :=
  if f_overlaps_iv i o then 0
  else if f_begin i <? f_begin o then f_begin o - f_end i else f_begin i - f_end o.
(** interval.py:104-124 *)
Definition f_distance_point (i : fiv) (p : Z) : Z :=
  if f_overlaps_point i p then 0
  else if f_end i <=? p then p - f_end i else f_begin i - p.

(** Equality and order of data: equal values, < on two values; None and a value raise
    TypeError on <, then the type names decide ("NoneType" < "int"/"float"). [interval.py:151-188] *)
Definition d_eqb (a b : option Z) : bool :=
  match a, b with None, None => true | Some x, Some y => x =? y | _, _ => false end.
(** interval.py:151-188 *)
Definition d_ltb (a b : option Z) : bool :=
  match a, b with
  | Some x, Some y => x <? y
  | None, Some _ => true
  | _, None => false
  end.

(** interval.py:151-159 __eq__. *)
Definition f_eqb (i o : fiv) : bool :=
  (f_begin i =? f_begin o) && (f_end i =? f_end o) && d_eqb (f_data i) (f_data o).

(** interval.py:161-188 __cmp__ (other is a FloatInterval): tuple comparison of
    (begin, end), then data. *)
Definition pair_ltb (a b : Z * Z) : bool :=
  (fst a <? fst b) || ((fst a =? fst b) && (snd a <? snd b)).
(** interval.py:161-188 *)
Definition f_cmp (i o : fiv) : Z :=
  let s := (f_begin i, f_end i) in
  let t := (f_begin o, f_end o) in
  if negb ((fst s =? fst t) && (snd s =? snd t)) then (if pair_ltb s t then -1 else 1)
  else if d_eqb (f_data i) (f_data o) then 0
  else if d_ltb (f_data i) (f_data o) then -1 else 1.

(** interval.py:190-204 __lt__, __gt__. *)
Definition f_ltb (i o : fiv) : bool := f_cmp i o <? 0.
(** interval.py:190-204 *)
Definition f_gtb (i o : fiv) : bool := 0 <? f_cmp i o.

(** interval.py:144-149 __hash__: hash of (begin, end), data ignored. *)
Definition f_hash (h : Z * Z -> Z) (i : fiv) : Z := h (f_begin i, f_end i).

(** interval.py:206-262: lt, le, gt, ge against an interval; ValueError on null. *)
Definition f_guard {A} (i o : fiv) (v : A) : res A :=
  if f_is_null i then Err ValueError else if f_is_null o then Err ValueError else Ok v.
(** interval.py:206-262 *)
Definition f_lt (i o : fiv) : res bool := f_guard i o (f_end i <=? f_begin o).
(** interval.py:206-262 *)
Definition f_le (i o : fiv) : res bool := f_guard i o (zclose (f_end i) (f_end o)).
(** interval.py:206-262 *)
Definition f_gt (i o : fiv) : res bool := f_guard i o (f_end o <=? f_begin i).
(** interval.py:206-262 *)
Definition f_ge (i o : fiv) : res bool := f_guard i o (f_begin o <=? f_begin i).

(** interval.py:264-274 _get_fields and 41-42 constructor from that tuple;
    301-306 __reduce__ : pickle rebuilds FloatInterval on the unpacked fields. *)
Inductive f_fields : Type := F2 (b e : Z) | F3 (b e : Z) (d : Z).
(** interval.py:264-274, 41-42, 301-306 *)
Definition f_get_fields (i : fiv) : f_fields :=
  match f_data i with Some d => F3 (f_begin i) (f_end i) d | None => F2 (f_begin i) (f_end i) end.
(** interval.py:264-274, 41-42, 301-306 *)
Definition f_new (t : f_fields) : fiv :=
  match t with F2 b e => mkF b e None | F3 b e d => mkF b e (Some d) end.
(** interval.py:264-274, 41-42, 301-306 *)
Definition f_unpickle_pickle (i : fiv) : fiv := f_new (f_get_fields i).

(** interval.py:294-299 copy. *)
Definition f_copy (i : fiv) : fiv := mkF (f_begin i) (f_end i) (f_data i).
