(** Model of neural_graph_composer/midi/Interval.py (closed intervals).
    Times are integers (see DESIGN.md). *)
From Verif Require Import PyBase.
Open Scope Z_scope.

(** Interval.py:15-21: frozen dataclass, fields start and end, no validation. *)
Record interval : Type := mkI { i_start : Z; i_end : Z }.

(** Interval.py:30-33 __eq__ (both arguments are Intervals). *)
Definition i_eqb (a b : interval) : bool :=
  (i_start a =? i_start b) && (i_end a =? i_end b).

(** Interval.py:35-38 __lt__. *)
Definition i_ltb (a b : interval) : bool :=
  (i_start a <? i_start b) || ((i_start a =? i_start b) && (i_end a <? i_end b)).

(** Interval.py:40-43 __le__. *)
Definition i_leb (a b : interval) : bool := i_ltb a b || i_eqb a b.

(** Interval.py:45-46 __contains__. *)
Definition i_contains (a : interval) (x : Z) : bool :=
  (i_start a <=? x) && (x <=? i_end a).

(** Interval.py:48-49 __hash__, for any hash of the pair (start, end). *)
Definition i_hash (h : Z * Z -> Z) (a : interval) : Z := h (i_start a, i_end a).

(** Interval.py:67-68 overlaps. *)
Definition i_overlaps (a b : interval) : bool :=
  Z.max (i_start a) (i_start b) <=? Z.min (i_end a) (i_end b).

(** Interval.py:51-56 intersection. *)
Definition i_intersection (a b : interval) : option interval :=
  if i_overlaps a b then
    let new_min := Z.max (i_start a) (i_start b) in
    let new_max := Z.min (i_end a) (i_end b) in
    if new_min <=? new_max then Some (mkI new_min new_max) else None
  else None.

(** Interval.py:58-65 union: always returns an Interval. *)
Definition i_union (a b : interval) : interval :=
  mkI (Z.min (i_start a) (i_start b)) (Z.max (i_end a) (i_end b)).
