(** Model of neural_graph_composer/interval/intervaltree.py, second part: set algebra and the
    remaining range operations of FloatIntervalTree.
    FloatIntervalTree derives from collections.abc.MutableSet (intervaltree.py:51), whose mixin
    methods (CPython's _collections_abc.py, external) are written out on the tree's own methods.
    The iteration order of the underlying Python sets is the list order here. *)
From Verif Require Import PyBase M_FloatInterval M_Node M_Tree.
Open Scope Z_scope.

(** Set.__or__, __and__, __sub__, __xor__: a new tree by FloatIntervalTree(iterable), i.e.
    intervaltree.py:226-243. *)
Definition t_or (t u : tree) : res tree := t_init (all_intervals t ++ all_intervals u).
(** intervaltree.py:226-243 *)
Definition t_and (t u : tree) : res tree := t_init (filter (t_contains t) (all_intervals u)).
(** intervaltree.py:226-243 *)
Definition t_sub (t u : tree) : res tree := t_init (filter (fun i => negb (t_contains u i)) (all_intervals t)).
(** intervaltree.py:226-243 *)
Definition t_xor (t u : tree) : res tree := bind (t_sub t u) (fun a => bind (t_sub u t) (fun b => t_or a b)).
(** MutableSet.__ior__ [intervaltree.py:50] *)
Definition t_ior (t u : tree) : res unit * tree := t_update t (all_intervals u).
(** MutableSet.__iand__: discards the members of self - it. [intervaltree.py:50] *)
Definition t_iand (t u : tree) : res unit * tree :=
  match t_sub t u with Err x => (Err x, t) | Ok d => t_difference_update t (all_intervals d) end.
(** MutableSet.__isub__ and __ixor__ with another tree; with the tree itself they call clear().
    [intervaltree.py:50] *)
Definition t_isub (t u : tree) : res unit * tree := t_difference_update t (all_intervals u).
(** intervaltree.py:50 *)
Fixpoint t_toggle (t : tree) (l : list fiv) : res unit * tree :=
  match l with
  | [] => (Ok tt, t)
  | i :: r => match (if t_contains t i then t_discard t i else t_add t i) with
              | (Ok _, t') => t_toggle t' r
              | (Err x, t') => (Err x, t')
              end
  end.
(** intervaltree.py:50 *)
Definition t_ixor (t u : tree) : res unit * tree := t_toggle t (all_intervals u).
(** MutableSet.pop: [first] is what the set's iterator gives first. [intervaltree.py:50] *)
Definition t_pop (first : list fiv -> fiv) (t : tree) : res fiv * tree :=
  match all_intervals t with
  | [] => (Err KeyError, t)
  | l => match t_discard t (first l) with (Ok _, t') => (Ok (first l), t') | (Err x, t') => (Err x, t') end
  end.
(** Set.isdisjoint, __le__, __lt__, __ge__, __gt__ [intervaltree.py:50] *)
Definition t_isdisjoint (t u : tree) : bool := forallb (fun i => negb (t_contains t i)) (all_intervals u).
(** intervaltree.py:50 *)
Definition t_le (t u : tree) : bool := if Nat.ltb (t_len u) (t_len t) then false else forallb (t_contains u) (all_intervals t).
(** intervaltree.py:50 *)
Definition t_lt (t u : tree) : bool := Nat.ltb (t_len t) (t_len u) && t_le t u.
(** intervaltree.py:50 *)
Definition t_ge (t u : tree) : bool := if Nat.ltb (t_len t) (t_len u) then false else forallb (t_contains t) (all_intervals u).
(** intervaltree.py:50 *)
Definition t_gt (t u : tree) : bool := Nat.ltb (t_len u) (t_len t) && t_ge t u.

(** intervaltree.py:403-410 intersection_update, 422-433 symmetric_difference_update with another
    tree. *)
Fixpoint t_removes (t : tree) (l : list fiv) : res unit * tree :=
  match l with
  | [] => (Ok tt, t)
  | i :: r => match t_remove t i with (Ok _, t') => t_removes t' r | (Err x, t') => (Err x, t') end
  end.
(** intervaltree.py:403-410, 422-433 *)
Definition t_intersection_update (t u : tree) : res unit * tree :=
  t_removes t (filter (fun i => negb (t_contains u i)) (all_intervals t)).
(** intervaltree.py:403-410, 422-433 *)
Fixpoint t_cancel (t : tree) (mine other : list fiv) : res unit * tree * list fiv :=
  match mine with
  | [] => (Ok tt, t, other)
  | i :: r => if set_mem i other
              then match t_remove t i with
                   | (Ok _, t') => t_cancel t' r (set_discard i other)
                   | (Err x, t') => (Err x, t', other)
                   end
              else t_cancel t r other
  end.
(** intervaltree.py:403-410, 422-433 *)
Definition t_symmetric_difference_update (t u : tree) : res unit * tree :=
  match t_cancel t (all_intervals t) (all_intervals u) with
  | (Ok _, t', other) => t_update t' other
  | (Err x, t', _) => (Err x, t')
  end.

(** intervaltree.py:806-817 at(p) and node.py:320-331 with a FloatInterval; 853-878 overlap with a
    FloatInterval. *)
Definition t_at_interval (t : tree) (p : fiv) : list fiv := if is_nil (top_node t) then [] else nd_search (top_node t) p.
(** intervaltree.py:806-817, node.py:320-331, 853-878 *)
Definition t_overlap_interval (t : tree) (p : fiv) : res (list fiv) := t_overlap_numbers t (f_begin p) (f_end p).
(** intervaltree.py:819-851 envelop(begin, end) with numbers. *)
Definition t_envelop (t : tree) (b e : Z) : res (list fiv) :=
  if is_nil (top_node t) then Ok [] else if e <=? b then Ok [] else Err AttributeError.
(** intervaltree.py:435-457 remove_overlap, remove_envelop; 1072-1076 __delitem__ is remove_overlap of
    a point. *)
Definition t_remove_all (t : tree) (hits : res (list fiv)) : res unit * tree :=
  match hits with Err x => (Err x, t) | Ok l => t_removes t l end.
(** intervaltree.py:435-457, 1072-1076 *)
Definition t_remove_overlap (t : tree) (b : Z) (e : option Z) : res unit * tree :=
  t_remove_all t (match e with None => t_at_number t b | Some e => t_overlap_numbers t b e end).
(** intervaltree.py:435-457, 1072-1076 *)
Definition t_remove_envelop (t : tree) (b e : Z) : res unit * tree := t_remove_all t (t_envelop t b e).
(** intervaltree.py:459-482 chop and 484-504 slice: building the pieces of a hit (470-476, 498-502)
    needs the undefined name Interval. *)
Definition pieces (hits : list fiv) : res (list fiv) := match hits with [] => Ok [] | _ => Err NameError end.
(** intervaltree.py:459-482, 484-504, 470-476, 498-502 *)
Definition t_chop (t : tree) (b e : Z) : res unit * tree :=
  match bind (t_at_number t b) (fun h1 => bind (t_at_number t e) (fun h2 =>
        let bh := filter (fun i => f_begin i <? b) h1 in let eh := filter (fun i => e <? f_end i) h2 in
        bind (pieces (bh ++ eh)) (fun ins => Ok (bh, eh, ins)))) with
  | Err x => (Err x, t)
  | Ok (bh, eh, ins) =>
    match t_remove_envelop t b e with
    | (Err x, t1) => (Err x, t1)
    | (Ok _, t1) => match t_difference_update t1 (bh ++ eh) with
                    | (Err x, t2) => (Err x, t2)
                    | (Ok _, t2) => t_update t2 ins
                    end
    end
  end.
(** intervaltree.py:459-482, 484-504, 470-476, 498-502 *)
Definition t_slice (t : tree) (p : Z) : res unit * tree :=
  match bind (t_at_number t p) (fun h => let hits := filter (fun i => f_begin i <? p) h in bind (pieces hits) (fun ins => Ok (hits, ins))) with
  | Err x => (Err x, t)
  | Ok (hits, ins) => match t_difference_update t hits with
                      | (Err x, t2) => (Err x, t2)
                      | (Ok _, t2) => t_update t2 ins
                      end
  end.
(** intervaltree.py:578-598 split_overlaps: with more than two boundaries, self[lbound] is asked for
    the first. *)
Definition t_split_overlaps (t : tree) : res unit * tree :=
  if Nat.eqb (t_len t) 0 then (Ok tt, t)
  else if Nat.eqb (List.length (bounds t)) 2 then (Ok tt, t)
  else match bounds t with
       | (b, _) :: _ :: _ => match t_getitem_number t b with
                             | Err x => (Err x, t)
                             | Ok l => match pieces l with Err x => (Err x, t) | Ok _ => match t_init [] with Ok t' => (Ok tt, t') | Err x => (Err x, t) end end
                             end
       | _ => match t_init [] with Ok t' => (Ok tt, t') | Err x => (Err x, t) end
       end.
(** intervaltree.py:933-1003 verify: with members, the node tree is compared with the set (940), then
    the undefined name Interval is used (958); without, 999-1003. *)
Definition same_members (a b : list fiv) : bool := forallb (fun i => set_mem i b) a && forallb (fun i => set_mem i a) b.
(** intervaltree.py:933-1003, 940, 958, 999-1003 *)
Definition t_verify (t : tree) : res unit :=
  match all_intervals t with
  | [] => if negb (match bounds t with [] => true | _ => false end) then Err AssertionError
          else if negb (is_nil (top_node t)) then Err AssertionError else Ok tt
  | l => if negb (same_members (nd_elems (top_node t)) l) then Err AssertionError else Err NameError
  end.
