(** Common vocabulary of the model: Python exceptions as values, the [bisect]
    module, stable sorting and [math.isclose].  No proofs in this file. *)
From Coq Require Export List ZArith QArith Bool Arith String.
Export ListNotations.
Open Scope Z_scope.

(** Python exceptions that the modelled code raises (kind only, no message).
    [raised at e.g. midi_note.py:251-330, intervaltree.py:286-345, custom_pretty_midi.py:999-1052] *)
Inductive exn : Type :=
| ValueError | KeyError | AttributeError | TypeError | IndexError
| AssertionError | NameError | RecursionError | RuntimeError | ZeroDivisionError
| FileExistsError | FileNotFoundError | StopIteration | MidiReaderError.

(** Result of a call: a value or an exception.
    [every call of the modelled files, e.g. midi_note.py:251-282] *)
Inductive res (A : Type) : Type :=
| Ok (a : A)
| Err (e : exn).
Arguments Ok {A} a.
Arguments Err {A} e.

(** midi_note.py:251-282 *)
Definition bind {A B} (x : res A) (f : A -> res B) : res B :=
  match x with Ok a => f a | Err e => Err e end.

(** midi_note.py:251-282 *)
Definition is_ok {A} (x : res A) : bool :=
  match x with Ok _ => true | Err _ => false end.

(** CPython [bisect.bisect_left(a, x)] (Lib/bisect.py):
    lo, hi = 0, len(a); while lo < hi: mid = (lo+hi)//2;
    if a[mid] < x: lo = mid+1 else: hi = mid.
    [fuel] bounds the number of iterations; [length a] suffices since hi-lo
    at least halves.  [lt] is the elements' [__lt__].
    [used at sorted_dict.py:49, midi_sequence.py:755, 773, midi_sequences.py:362, 388, 413, intervaltree.py:839-873] *)
Fixpoint bisect_left_loop {A} (lt : A -> A -> bool) (a : list A) (x : A)
         (fuel lo hi : nat) : nat :=
  match fuel with
  | O => lo
  | S f =>
    if Nat.ltb lo hi then
      let mid := Nat.div (lo + hi) 2 in
      match nth_error a mid with
      | Some y => if lt y x then bisect_left_loop lt a x f (S mid) hi
                  else bisect_left_loop lt a x f lo mid
      | None => lo
      end
    else lo
  end.
(** sorted_dict.py:49, midi_sequence.py:755, 773, midi_sequences.py:362, 388, 413, intervaltree.py:839-873 *)
Definition bisect_left {A} (lt : A -> A -> bool) (a : list A) (x : A) : nat :=
  bisect_left_loop lt a x (S (List.length a)) 0%nat (List.length a).

(** CPython [bisect.bisect_right(a, x)]: as above with
    if x < a[mid]: hi = mid else: lo = mid+1. [used at midi_sequences.py:584, 601, 612] *)
Fixpoint bisect_right_loop {A} (lt : A -> A -> bool) (a : list A) (x : A)
         (fuel lo hi : nat) : nat :=
  match fuel with
  | O => lo
  | S f =>
    if Nat.ltb lo hi then
      let mid := Nat.div (lo + hi) 2 in
      match nth_error a mid with
      | Some y => if lt x y then bisect_right_loop lt a x f lo mid
                  else bisect_right_loop lt a x f (S mid) hi
      | None => lo
      end
    else lo
  end.
(** midi_sequences.py:584, 601 *)
Definition bisect_right {A} (lt : A -> A -> bool) (a : list A) (x : A) : nat :=
  bisect_right_loop lt a x (S (List.length a)) 0%nat (List.length a).

(** [list.insert(i, x)] for 0 <= i. [used at sorted_dict.py:50, midi_sequence.py:756, 774] *)
Definition list_insert {A} (l : list A) (i : nat) (x : A) : list A :=
  firstn i l ++ x :: skipn i l.

(** [bisect.insort_left(a, x)]. [used at midi_sequences.py:362, 388, 413] *)
Definition insort_left {A} (lt : A -> A -> bool) (a : list A) (x : A) : list A :=
  list_insert a (bisect_left lt a x) x.

(** [list.sort()] / [sorted] with the elements' [__lt__] (Python sorts are
    stable).  Simplification: modelled as stable insertion sort; for a strict weak
    order every stable sort returns the same list.  Where the code sorts with an
    order that is not transitive, only permutation facts are claimed.
    [used at midi_sequence.py:353, 390, custom_pretty_midi.py:1375, 1424, node.py:91-119] *)
Fixpoint insert_stable {A} (lt : A -> A -> bool) (x : A) (l : list A) : list A :=
  match l with
  | [] => [x]
  | y :: r => if lt y x then y :: insert_stable lt x r else x :: l
  end.
(** midi_sequence.py:353, 390, custom_pretty_midi.py:1375, 1424, node.py:91-119 *)
Definition py_sort {A} (lt : A -> A -> bool) (l : list A) : list A :=
  fold_right (insert_stable lt) [] l.

(** [list.remove(x)]: removes the first equal element, ValueError if none.
    [used at sorted_dict.py:57-63, custom_pretty_midi.py:1278-1448] *)
Fixpoint list_remove {A} (eqb : A -> A -> bool) (x : A) (l : list A) : res (list A) :=
  match l with
  | [] => Err ValueError
  | y :: r => if eqb y x then Ok r
              else match list_remove eqb x r with
                   | Ok r' => Ok (y :: r')
                   | Err e => Err e
                   end
  end.

(** [math.isclose(a, b)] with the default rel_tol=1e-09, abs_tol=0.0, on times in
    integer units (any unit: the test is scale invariant), exact arithmetic.
    [used at interval.py:53, 86, 226, 237, node.py:110, 113, 325] *)
Definition zclose (a b : Z) : bool :=
  1000000000 * Z.abs (a - b) <=? Z.max (Z.abs a) (Z.abs b).

(** [math.isclose(a, b, rel_tol=rel, abs_tol=abs)] on rationals, exact arithmetic.
    [used at midi_note.py:197-198, 649] *)
Definition Qmaxb (a b : Q) : Q := if Qle_bool a b then b else a.
(** midi_note.py:197-198 *)
Definition Qminb (a b : Q) : Q := if Qle_bool a b then a else b.
(** midi_note.py:197-198 *)
Definition Qabsb (a : Q) : Q := if Qle_bool 0 a then a else Qopp a.
(** midi_note.py:197-198 *)
Definition Qltb (a b : Q) : bool := negb (Qle_bool b a).
(** midi_note.py:197-198 *)
Definition qclose (rel abs a b : Q) : bool :=
  Qle_bool (Qabsb (a - b)) (Qmaxb (rel * Qmaxb (Qabsb a) (Qabsb b)) abs).
(** [math.isclose(a, b)] with defaults, on rationals.
    [used at midi_time_signature.py:153, 278, midi_control_change.py:222, midi_key_signature.py:78, midi_reader.py:155] *)
Definition qclose_def (a b : Q) : bool := qclose (1 # 1000000000) 0 a b.
