(** Model of neural_graph_composer/midi/sorted_dict.py and
    sorted_interval_dict.py. *)
From Verif Require Import PyBase M_Interval.

Section SortedDict.
Variables K V : Type.
Variables (k_ltb k_eqb : K -> K -> bool).   (* the keys' __lt__ and __eq__ *)

(** sorted_dict.py:10,33-35: an OrderedDict ([od], here its entries in insertion
    order, keys distinct) plus the attribute [_keys]. *)
Record sdict : Type := mkSD { od : list (K * V); sd_keys : list K }.

(** sorted_dict.py:33-35: SortedDict() . *)
Definition sd_empty : sdict := mkSD [] [].

(** sorted_dict.py:33-35 with an argument: OrderedDict.__init__ stores each pair with
    the overridden __setitem__, which reads self._keys before line 35 sets it. *)
Definition sd_init (pairs : list (K * V)) : res sdict :=
  match pairs with [] => Ok sd_empty | _ :: _ => Err AttributeError end.

(** OrderedDict.__contains__ / __getitem__ / __setitem__ / __delitem__ (inherited).
    [sorted_dict.py:10-63] *)
Fixpoint od_get (l : list (K * V)) (k : K) : option V :=
  match l with
  | [] => None
  | (k', v) :: r => if k_eqb k' k then Some v else od_get r k
  end.
(** sorted_dict.py:10-63 *)
Definition od_mem (l : list (K * V)) (k : K) : bool :=
  match od_get l k with Some _ => true | None => false end.
(** sorted_dict.py:10-63 *)
Fixpoint od_set (l : list (K * V)) (k : K) (v : V) : list (K * V) :=
  match l with
  | [] => [(k, v)]
  | (k', v') :: r => if k_eqb k' k then (k', v) :: r else (k', v') :: od_set r k v
  end.
(** sorted_dict.py:10-63 *)
Fixpoint od_del (l : list (K * V)) (k : K) : list (K * V) :=
  match l with
  | [] => []
  | (k', v') :: r => if k_eqb k' k then r else (k', v') :: od_del r k
  end.

(** sorted_dict.py:57-63 __delitem__: OrderedDict deletion (KeyError if absent), then
    self._keys.remove(key) (ValueError if absent there).  Returns the outcome and the
    state afterwards. *)
Definition sd_del (d : sdict) (k : K) : res unit * sdict :=
  if od_mem (od d) k then
    let od' := od_del (od d) k in
    match list_remove k_eqb k (sd_keys d) with
    | Ok ks => (Ok tt, mkSD od' ks)
    | Err e => (Err e, mkSD od' (sd_keys d))
    end
  else (Err KeyError, d).

(** sorted_dict.py:37-51 __setitem__. *)
Definition sd_set (d : sdict) (k : K) (v : V) : res unit * sdict :=
  let '(r, d1) := if od_mem (od d) k then sd_del d k else (Ok tt, d) in
  match r with
  | Err e => (Err e, d1)
  | Ok _ =>
    let pos := bisect_left k_ltb (sd_keys d1) k in
    (Ok tt, mkSD (od_set (od d1) k v) (list_insert (sd_keys d1) pos k))
  end.

(** OrderedDict.__getitem__ (inherited). [sorted_dict.py:10] *)
Definition sd_get (d : sdict) (k : K) : res V :=
  match od_get (od d) k with Some v => Ok v | None => Err KeyError end.

(** dict.__len__ (inherited). [sorted_dict.py:10] *)
Definition sd_len (d : sdict) : nat := List.length (od d).

(** sorted_dict.py:65-69 keys, 53-55 __iter__, 83-87 __reversed__. *)
Definition sd_keys_of (d : sdict) : list K := sd_keys d.
(** sorted_dict.py:65-69, 53-55, 83-87 *)
Definition sd_reversed (d : sdict) : list K := rev (sd_keys d).

(** sorted_dict.py:65-69, 53-55, 83-87 *)
Fixpoint mapM {A B} (f : A -> res B) (l : list A) : res (list B) :=
  match l with
  | [] => Ok []
  | a :: r => match f a with
              | Err e => Err e
              | Ok b => match mapM f r with Ok bs => Ok (b :: bs) | Err e => Err e end
              end
  end.

(** sorted_dict.py:71-75 values, 77-81 items. *)
Definition sd_values (d : sdict) : res (list V) := mapM (sd_get d) (sd_keys d).
(** sorted_dict.py:71-75, 77-81 *)
Definition sd_items (d : sdict) : res (list (K * V)) :=
  mapM (fun k => bind (sd_get d k) (fun v => Ok (k, v))) (sd_keys d).

(** The mutating calls on a SortedDict. [sorted_dict.py:10-87] *)
Inductive sd_op : Type := SdSet (k : K) (v : V) | SdDel (k : K).
(** sorted_dict.py:10-87 *)
Definition sd_step (d : sdict) (o : sd_op) : res unit * sdict :=
  match o with SdSet k v => sd_set d k v | SdDel k => sd_del d k end.
(** A history: exceptions are caught by the caller and the object is used further.
    [sorted_dict.py:10-87] *)
Definition sd_run (d : sdict) (ops : list sd_op) : sdict :=
  fold_left (fun d o => snd (sd_step d o)) ops d.
End SortedDict.

Arguments mkSD {K V}. Arguments od {K V}. Arguments sd_keys {K V}.
Arguments sd_empty {K V}. Arguments SdSet {K V}. Arguments SdDel {K V}.
Arguments sd_init {K V}. Arguments sd_len {K V}. Arguments sd_keys_of {K V}.
Arguments sd_reversed {K V}.

(** ---- sorted_interval_dict.py: a MutableMapping around a SortedDict ---- *)
Section SID.
Variable V : Type.
(** [sorted_interval_dict.py:6-71] *)
Definition sid := sdict interval V.

(** sorted_interval_dict.py:23-27 __setitem__ with an Interval key. *)
Definition sid_set (d : sid) (k : interval) (v : V) : res unit * sid :=
  sd_set _ _ i_ltb i_eqb d k v.

(** Keys as the caller may pass them: an Interval, a slice (None = bound omitted) or
    something else. [sorted_interval_dict.py:6-71] *)
Inductive sid_key : Type :=
| KInterval (i : interval) | KSlice (start stop : option Z) | KOther.

(** sorted_interval_dict.py:17-19: Interval(start or -inf, stop or +inf) and
    Interval.overlaps (Interval.py:67-68) with infinite bounds:
    max(k.start, -inf) = k.start and min(k.end, inf) = k.end. *)
Definition overlaps_slice (k : interval) (start stop : option Z) : bool :=
  let lo := match start with Some s => Z.max (i_start k) s | None => i_start k end in
  let hi := match stop with Some e => Z.min (i_end k) e | None => i_end k end in
  Z.leb lo hi.

(** sorted_interval_dict.py:9-11: SortedIntervalDict(pairs) = dict(pairs), then
    MutableMapping.update, i.e. one __setitem__ per pair.  (The pairs passed by
    __getitem__ have distinct keys, so dict(...) keeps them all, in order.) *)
Definition sid_of_pairs (l : list (interval * V)) : sid :=
  fold_left (fun d p => snd (sid_set d (fst p) (snd p))) l sd_empty.

(** sorted_interval_dict.py:13-21 __getitem__. The result is a value or a new dict. *)
Inductive sid_val : Type := VOne (v : V) | VDict (d : sid).
(** sorted_interval_dict.py:13-21 *)
Definition sid_get (d : sid) (key : sid_key) : res sid_val :=
  match key with
  | KInterval i => bind (sd_get _ _ i_eqb d i) (fun v => Ok (VOne v))
  | KSlice a b =>
      (* self.items(): Mapping.items iterates the keys and looks each up *)
      bind (sd_items _ _ i_eqb d) (fun its =>
        Ok (VDict (sid_of_pairs (filter (fun p => overlaps_slice (fst p) a b) its))))
  | KOther => Err KeyError
  end.

(** sorted_interval_dict.py:39-54 __delitem__.  self._items does not exist, so the
    Interval branch raises AttributeError at line 45.  The slice branch (lines 51-52)
    deletes each selected key with the Interval branch; [sel] is
    list(self.keys())[key], some sublist of the keys. *)
Definition sid_del_interval (d : sid) (k : interval) : res unit * sid :=
  (Err AttributeError, d).
(** sorted_interval_dict.py:39-54, 45, 51-52 *)
Definition sid_del_slice (d : sid) (a b : nat) : res unit * sid :=
  match firstn (b - a) (skipn a (sd_keys d)) with
  | [] => (Ok tt, d)
  | k :: _ => sid_del_interval d k
  end.

(** MutableMapping.pop / popitem / clear end in __delitem__ (collections.abc).
    [sorted_interval_dict.py:6-71] *)
Definition sid_pop (d : sid) (k : interval) : res V * sid :=
  match sd_get _ _ i_eqb d k with
  | Err e => (Err e, d)
  | Ok v => match sid_del_interval d k with
            | (Ok _, d') => (Ok v, d')
            | (Err e, d') => (Err e, d')
            end
  end.

(** The mutating calls. [sorted_interval_dict.py:6-71] *)
Inductive sid_op : Type :=
| SidSet (k : interval) (v : V) | SidDel (k : interval) | SidDelSlice (a b : nat)
| SidPop (k : interval).
(** sorted_interval_dict.py:6-71 *)
Definition sid_step (d : sid) (o : sid_op) : sid :=
  match o with
  | SidSet k v => snd (sid_set d k v)
  | SidDel k => snd (sid_del_interval d k)
  | SidDelSlice a b => snd (sid_del_slice d a b)
  | SidPop k => snd (sid_pop d k)
  end.
(** sorted_interval_dict.py:6-71 *)
Definition sid_run (ops : list sid_op) : sid := fold_left sid_step ops sd_empty.
End SID.
Arguments SidSet {V}. Arguments SidDel {V}. Arguments SidDelSlice {V}. Arguments SidPop {V}.
Arguments VOne {V}. Arguments VDict {V}.
