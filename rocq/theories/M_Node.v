(** Model of neural_graph_composer/interval/node.py (Node).
    A missing child (None) is [Nil].  [s] is the set s_center as a duplicate-free list
    (iteration order of a Python set is unspecified; the model iterates in list order).
    Nodes are mutated in place by the code; the model returns the new tree, and an
    exception discards partial mutations (simplification; the only operations for which the
    theorems use the state after an exception raise before mutating anything).
    Recursion is on fuel; running out of fuel is RecursionError. *)
From Verif Require Import PyBase M_FloatInterval.
Open Scope Z_scope.

(** node.py:46-54 slots. *)
Inductive node : Type :=
| Nil
| Nd (x : Z) (s : list fiv) (l r : node) (depth balance : Z).

(** node.py:46-54 *)
Definition nd_depth (t : node) : Z := match t with Nil => 0 | Nd _ _ _ _ d _ => d end.
(** node.py:46-54 *)
Definition nd_balance (t : node) : Z := match t with Nil => 0 | Nd _ _ _ _ _ b => b end.
(** node.py:46-54 *)
Definition nd_s (t : node) : list fiv := match t with Nil => [] | Nd _ s _ _ _ _ => s end.
(** node.py:46-54 *)
Definition is_nil (t : node) : bool := match t with Nil => true | _ => false end.

(** node.py:552-562 count_nodes (0 for None). *)
Fixpoint nd_size (t : node) : nat :=
  match t with Nil => 0%nat | Nd _ _ l r _ _ => S (nd_size l + nd_size r) end.

(** node.py:140-148 compute_depth (0 for None). *)
Fixpoint nd_height (t : node) : Z :=
  match t with Nil => 0 | Nd _ _ l r _ _ => 1 + Z.max (nd_height l) (nd_height r) end.

(** node.py:461-470 all_children, as a list (the code collects into a set). *)
Fixpoint nd_elems (t : node) : list fiv :=
  match t with Nil => [] | Nd _ s l r _ _ => nd_elems l ++ s ++ nd_elems r end.

(** Python set operations on duplicate-free lists. [node.py:46-100] *)
Definition set_mem (i : fiv) (s : list fiv) : bool := existsb (fun k => f_eqb k i) s.
(** node.py:46-100 *)
Definition set_add (i : fiv) (s : list fiv) : list fiv := if set_mem i s then s else s ++ [i].
(** node.py:46-100 *)
Definition set_discard (i : fiv) (s : list fiv) : list fiv := filter (fun k => negb (f_eqb k i)) s.
(** node.py:46-100 *)
Definition set_update (s new : list fiv) : list fiv := fold_left (fun s i => set_add i s) new s.

(** node.py:121-123 center_hit, 125-130 hit_branch (true = right). *)
Definition center_hit (x : Z) (i : fiv) : bool := f_contains_point i x.
(** node.py:121-123, 125-130 *)
Definition hit_branch (x : Z) (i : fiv) : bool := x <? f_begin i.

(** node.py:132-138 refresh_balance. *)
Definition refresh (t : node) : node :=
  match t with
  | Nil => Nil
  | Nd x s l r _ _ =>
      Nd x s l r (1 + Z.max (nd_depth l) (nd_depth r)) (nd_depth r - nd_depth l)
  end.

(** node.py:56-71 __init__ without children: rotate() only refreshes. *)
Definition mk_leaf (x : Z) (s : list fiv) : node := refresh (Nd x s Nil Nil 0 0).
(** node.py:73-79 from_interval. *)
Definition from_interval (i : fiv) : node := mk_leaf (f_begin i) [i].

(** node.py:73-79 *)
Definition foldM {A B} (f : A -> B -> res A) (l : list B) (a : A) : res A :=
  fold_left (fun acc b => bind acc (fun a => f a b)) l (Ok a).

(** node.py:175-206 srotate, given the recursive calls [rot] (self.rotate(), line 193)
    and [rm] (save[light].remove(iv), line 200). *)
Definition srotate_with (rot : node -> res node) (rm : node -> fiv -> res node) (t : node)
  : res node :=
  match t with
  | Nil => Err AttributeError
  | Nd x s l r d b =>
    if 0 <? b then
      match r with
      | Nil => Err TypeError
      | Nd xs ss ls rs ds bs =>
        bind (rot (Nd x s l ls d b)) (fun n =>
        let prom := filter (center_hit xs) (nd_s n) in
        bind (foldM rm prom n) (fun n' =>
        Ok (refresh (Nd xs (set_update ss prom) n' rs ds bs))))
      end
    else
      match l with
      | Nil => Err TypeError
      | Nd xs ss ls rs ds bs =>
        bind (rot (Nd x s rs r d b)) (fun n =>
        let prom := filter (center_hit xs) (nd_s n) in
        bind (foldM rm prom n) (fun n' =>
        Ok (refresh (Nd xs (set_update ss prom) ls n' ds bs))))
      end
  end.

(** node.py:208-219 drotate. *)
Definition drotate_with (rot : node -> res node) (rm : node -> fiv -> res node) (t : node)
  : res node :=
  match t with
  | Nil => Err AttributeError
  | Nd x s l r d b =>
    if 0 <? b then
      bind (srotate_with rot rm r) (fun r' => srotate_with rot rm (refresh (Nd x s l r' d b)))
    else
      bind (srotate_with rot rm l) (fun l' => srotate_with rot rm (refresh (Nd x s l' r d b)))
  end.

(** node.py:150-173 rotate. *)
Definition rotate_with (rot : node -> res node) (rm : node -> fiv -> res node) (t : node)
  : res node :=
  let t1 := refresh t in
  match t1 with
  | Nil => Err AttributeError
  | Nd x s l r d b =>
    if Z.abs b <? 2 then Ok t1
    else
      let my_heavy := 0 <? b in
      let child := if my_heavy then r else l in
      let child_heavy := 0 <? nd_balance child in
      if Bool.eqb my_heavy child_heavy || (nd_balance child =? 0)
      then srotate_with rot rm t1
      else drotate_with rot rm t1
  end.

(** attrgetter('end','begin') order, node.py:392. *)
Definition end_begin_ltb (a b : fiv) : bool :=
  pair_ltb (f_end a, f_begin a) (f_end b, f_begin b).

(** node.py:392-398: new x_center for the greatest child. *)
Definition pop_center (x : Z) (s : list fiv) : Z :=
  match rev (py_sort end_begin_ltb s) with
  | [] => x
  | max_iv :: rest =>
      fold_left (fun c k => if f_end k =? f_end max_iv then c else Z.max c (f_end k)) rest x
  end.

(** node.py:392-398 *)
Fixpoint nd_rotate (fuel : nat) (t : node) {struct fuel} : res node :=
  match fuel with
  | O => Err RecursionError
  | S f => rotate_with (nd_rotate f) (fun t i => bind (nd_remove_helper f t i true) (fun p => Ok (fst p))) t
  end
(** node.py:255-309 remove_interval_helper; the boolean is [done] being non-empty. *)
with nd_remove_helper (fuel : nat) (t : node) (i : fiv) (should_raise : bool) {struct fuel}
  : res (node * bool) :=
  match fuel with
  | O => Err RecursionError
  | S f =>
    match t with
    | Nil => Err AttributeError
    | Nd x s l r d b =>
      if center_hit x i then
        if negb should_raise && negb (set_mem i s) then Ok (t, true)
        else if negb (set_mem i s) then Err KeyError
        else
          let s' := set_discard i s in
          match s' with
          | _ :: _ => Ok (Nd x s' l r d b, true)
          | [] => bind (nd_prune f (Nd x [] l r d b)) (fun t' => Ok (t', false))
          end
      else
        let dir := hit_branch x i in
        let child := if dir then r else l in
        if is_nil child then
          if should_raise then Err ValueError else Ok (t, true)
        else
          bind (nd_remove_helper f child i should_raise) (fun p =>
          let t' := if dir then Nd x s l (fst p) d b else Nd x s (fst p) r d b in
          if snd p then Ok (t', true)
          else bind (nd_rotate f t') (fun t'' => Ok (t'', false)))
    end
  end
(** node.py:333-372 prune. *)
with nd_prune (fuel : nat) (t : node) {struct fuel} : res node :=
  match fuel with
  | O => Err RecursionError
  | S f =>
    match t with
    | Nil => Err AttributeError
    | Nd x s l r d b =>
      if is_nil l then Ok r
      else if is_nil r then Ok l
      else
        bind (nd_pop f l) (fun p =>
        match fst p with
        | Nil => Err AttributeError
        | Nd hx hs _ _ hd hb => nd_rotate f (refresh (Nd hx hs (snd p) r hd hb))
        end)
    end
  end
(** node.py:374-449 pop_greatest_child: (greatest_child, node). *)
with nd_pop (fuel : nat) (t : node) {struct fuel} : res (node * node) :=
  match fuel with
  | O => Err RecursionError
  | S f =>
    match t with
    | Nil => Err AttributeError
    | Nd x s l r d b =>
      if is_nil r then
        match s with
        | [] => Err IndexError
        | _ =>
          let nx := pop_center x s in
          let cs := filter (fun k => f_contains_point k nx) s in
          let s' := filter (fun k => negb (set_mem k cs)) s in
          match s' with
          | _ :: _ => Ok (mk_leaf nx cs, Nd x s' l r d b)
          | [] => Ok (mk_leaf nx cs, l)
          end
        end
      else
        bind (nd_pop f r) (fun p =>
        match fst p with
        | Nil => Err AttributeError
        | Nd gx gs gl gr gd gb =>
          let moved := filter (fun k => f_contains_point k gx) s in
          let s' := filter (fun k => negb (f_contains_point k gx)) s in
          (* greatest_child.add(iv) with iv containing its x_center: s_center.add *)
          let g := Nd gx (set_update gs moved) gl gr gd gb in
          match s' with
          | _ :: _ => bind (nd_rotate f (refresh (Nd x s' l (snd p) d b))) (fun t' => Ok (g, t'))
          | [] => bind (nd_prune f (Nd x s' l (snd p) d b)) (fun t' => Ok (g, t'))
          end
        end)
    end
  end.

(** A recursion budget larger than any needed on a tree of this size. [node.py:221-460] *)
Definition nd_fuel (t : node) : nat := (3 * nd_size t + 3)%nat.

(** node.py:238-253 remove, discard. *)
Definition nd_remove (t : node) (i : fiv) : res node :=
  bind (nd_remove_helper (nd_fuel t) t i true) (fun p => Ok (fst p)).
(** node.py:238-253 *)
Definition nd_discard (t : node) (i : fiv) : res node :=
  bind (nd_remove_helper (nd_fuel t) t i false) (fun p => Ok (fst p)).

(** node.py:221-236 add. *)
Fixpoint nd_add (t : node) (i : fiv) : res node :=
  match t with
  | Nil => Err AttributeError
  | Nd x s l r d b =>
    if center_hit x i then Ok (Nd x (set_add i s) l r d b)
    else if hit_branch x i then
      if is_nil r then Ok (refresh (Nd x s l (from_interval i) d b))
      else bind (nd_add r i) (fun r' =>
           let t' := Nd x s l r' d b in nd_rotate (nd_fuel t') t')
    else
      if is_nil l then Ok (refresh (Nd x s (from_interval i) r d b))
      else bind (nd_add l i) (fun l' =>
           let t' := Nd x s l' r d b in nd_rotate (nd_fuel t') t')
  end.

(** node.py:90-119 from_sorted_intervals / init_from_sorted. *)
Fixpoint from_sorted (fuel : nat) (ivs : list fiv) : res node :=
  match fuel with
  | O => Err RecursionError
  | S f =>
    match ivs with
    | [] => Ok Nil
    | first :: _ =>
      let c := f_begin (nth (Nat.div (List.length ivs) 2) ivs first) in
      let right := filter (fun k => c <? f_begin k) ivs in
      let left := filter (fun k => negb (c <? f_begin k) && zclose (f_end k) c) ivs in
      let center := filter (fun k => negb (c <? f_begin k) && negb (zclose (f_end k) c)) ivs in
      bind (from_sorted f left) (fun l =>
      bind (from_sorted f right) (fun r =>
      let t := Nd c (set_update [] center) l r 0 0 in
      nd_rotate (nd_fuel t) t))
    end
  end.
(** node.py:81-88 from_intervals: every terminating run recurses at most
    [length ivs] deep (each call receives a strictly shorter list, or the same
    list again, in which case it never stops). *)
Definition from_intervals (ivs : list fiv) : res node :=
  from_sorted (S (List.length ivs)) (py_sort f_ltb ivs).

(** node.py:451-459 contains_point. *)
Fixpoint nd_contains_point (t : node) (p : Z) : bool :=
  match t with
  | Nil => false
  | Nd x s l r _ _ =>
    existsb (fun k => f_contains_point k p) s ||
    (if x <? p then nd_contains_point r p else nd_contains_point l p)
  end.

(** node.py:320-331 search_point with a FloatInterval argument (isclose compares the
    argument's end, interval.py:225-226; point > x_center is __cmp__ with a number:
    (begin, end) against (x,), interval.py:172-178).  A number has no isclose:
    AttributeError (line 325 or 327). *)
Definition iv_isclose (p : fiv) (y : Z) : bool := zclose (f_end p) y.
(** node.py:320-331, interval.py:225-226, interval.py:172-178, 325, 327 *)
Fixpoint nd_search (t : node) (p : fiv) : list fiv :=
  match t with
  | Nil => []
  | Nd x s l r _ _ =>
    let here := filter (fun k => iv_isclose p (f_begin k) && iv_isclose p (f_end k)) s in
    here ++
    (if iv_isclose p x && negb (is_nil l) then nd_search l p
     else if (x <=? f_begin p) && negb (is_nil r) then nd_search r p else [])
  end.
