(** Model of neural_graph_composer/midi_graph_builder.py, first part: grouping notes into chords
    (compute_tolerance, compute_data), splitting chords (build_sequence 991-1002), velocities and
    feature tensors.
    Simplifications: times are rationals, so round(x, 2) is exact; tensors hold integers (pitches,
    rounded velocities and 0/1 are the only values stored). *)
From Coq Require Import Qround.
From Verif Require Import PyBase M_Note M_Events M_Seq.
Open Scope Z_scope.

(** What CPython decides: hash() of a number, hash() of a frozenset of integers (given by a list
    of its elements) and the iteration order of the frozenset built from a list of distinct
    integers.  Every theorem holds for all such functions unless its hypotheses say otherwise.
    [midi_graph_builder.py:737, 991-1002, 1024] *)
Record env : Type := mkEnv { e_thash : Q -> Z; e_shash : list Z -> Z; e_order : list Z -> list Z }.

(** hash() of a finite float or fraction as documented ("Hashing of numeric types") and
    implemented (_Py_HashDouble, Fraction.__hash__), with the 64-bit modulus 2**61 - 1.
    [midi_graph_builder.py:737, 1024] *)
Definition hash_modulus : Z := 2 ^ 61 - 1.
(** midi_graph_builder.py:737 *)
Fixpoint powmod (b : Z) (e : positive) (m : Z) : Z :=
  match e with
  | xH => b mod m
  | xO e' => let h := powmod b e' m in (h * h) mod m
  | xI e' => let h := powmod b e' m in ((h * h) mod m * b) mod m
  end.
(** midi_graph_builder.py:737 *)
Definition py_hash (q : Q) : Z :=
  let r := Qred q in
  let d := Zpos (Qden r) in
  let inv := powmod d (Z.to_pos (hash_modulus - 2)) hash_modulus in
  let h := if (d mod hash_modulus =? 0) then 314159 else (Z.abs (Qnum r) * inv) mod hash_modulus in
  let h := if Qnum r <? 0 then - h else h in
  if h =? -1 then -2 else h.

(** midi_graph_builder.py:589-598 instrument_time_differences: np.diff of the sorted starts. *)
Fixpoint diffs (l : list Q) : list Q :=
  match l with
  | a :: ((b :: _) as r) => (b - a)%Q :: diffs r
  | _ => []
  end.
(** midi_graph_builder.py:589-598 *)
Definition time_differences (s : seq) : list Q :=
  if i_drum (q_instr s) then [] else diffs (py_sort Qltb (map n_start (q_notes s))).
(** np.percentile(a, p), linear interpolation, a non-empty. [midi_graph_builder.py:692] *)
Definition percentile (a : list Q) (p : Q) : Q :=
  let s := py_sort Qltb a in
  let last := (List.length s - 1)%nat in
  let v := (inject_Z (Z.of_nat last) * p / 100)%Q in
  let i := Z.to_nat (Qfloor v) in
  let x := nth (Nat.min i last) s 0%Q in
  let y := nth (Nat.min (S i) last) s 0%Q in
  (x + (y - x) * (v - inject_Z (Qfloor v)))%Q.
(** midi_graph_builder.py:668-693 compute_tolerance. *)
Definition compute_tolerance (s : seq) (p : Q) : Q :=
  let d := time_differences s in
  if Nat.ltb (List.length d) 2 then 0%Q else percentile d p.

(** round(x, digits) for digits >= 0. [midi_graph_builder.py:731-733] *)
Definition round_digits (x : Q) (digits : nat) : Q :=
  let k := inject_Z (10 ^ Z.of_nat digits) in (inject_Z (round_half_even (x * k)) / k)%Q.
(** midi_graph_builder.py:728-733: the adjusted time. *)
Definition adjusted (tolerance : Q) (auto : bool) (precision : nat) (start : Q) : Q :=
  if Qeq_bool tolerance 0 then start
  else if auto then round_digits (inject_Z (round_half_even (start / tolerance)) * tolerance) precision
  else (round_digits (start / tolerance) precision * tolerance)%Q.

(** A Python dict as an association list in insertion order. [midi_graph_builder.py:700-745] *)
Fixpoint dict_get {K V} (eqb : K -> K -> bool) (k : K) (l : list (K * V)) : option V :=
  match l with [] => None | (k', v) :: r => if eqb k' k then Some v else dict_get eqb k r end.
(** midi_graph_builder.py:700-745 *)
Fixpoint dict_set {K V} (eqb : K -> K -> bool) (k : K) (v : V) (l : list (K * V)) : list (K * V) :=
  match l with
  | [] => [(k, v)]
  | (k', v') :: r => if eqb k' k then (k', v) :: r else (k', v') :: dict_set eqb k v r
  end.

(** midi_graph_builder.py:719-743: the loop of compute_data. *)
Fixpoint group_notes (e : env) (tolerance : Q) (auto : bool) (precision : nat)
         (data : list (Z * list note)) (longest : Z) (l : list note) : res (list (Z * list note) * Z) :=
  match l with
  | [] => Ok (data, longest)
  | n :: r =>
    if n_drum n || (n_velocity n =? 0) then group_notes e tolerance auto precision data longest r
    else if Qltb (n_start n) 0 then Err AssertionError
    else
      let a := adjusted tolerance auto precision (n_start n) in
      if Qltb a 0 then Err AssertionError
      else
        let k := e_thash e a in
        let g := match dict_get Z.eqb k data with Some g => g | None => [] end ++ [n] in
        group_notes e tolerance auto precision (dict_set Z.eqb k g data)
                    (Z.max longest (Z.of_nat (List.length g))) r
  end.
(** midi_graph_builder.py:695-749 compute_data. *)
Definition compute_data (e : env) (s : seq) (tolerance : Q) (filter_single auto : bool) (precision : nat)
  : res (list (Z * list note) * Z) :=
  let tol := if auto then compute_tolerance s 95 else tolerance in
  bind (group_notes e tol auto precision [] 0 (q_notes s)) (fun p =>
  Ok (if filter_single then filter (fun kv => Nat.ltb 1 (List.length (snd kv))) (fst p) else fst p, snd p)).

(** frozenset(l): the elements, inserted in order of first occurrence, in iteration order.
    [midi_graph_builder.py:991-1002] *)
Fixpoint distinct (l : list Z) : list Z :=
  match l with
  | [] => []
  | a :: r => a :: filter (fun b => negb (b =? a)) (distinct r)
  end.
(** midi_graph_builder.py:991-1002 *)
Definition frozenset (e : env) (l : list Z) : list Z := e_order e (distinct l).
(** midi_graph_builder.py:994-1000: consecutive slices of at most [k] elements ([fuel] bounds the
    while loop; the length suffices for k > 0). *)
Fixpoint slices (fuel k : nat) (l : list Z) : list (list Z) :=
  match fuel with
  | O => []
  | S f => match l with [] => [] | _ => firstn k l :: slices f k (skipn k l) end
  end.
(** midi_graph_builder.py:991-1002. *)
Definition split_chord (e : env) (size : Z) (notes : list note) : list (list Z) :=
  let g := frozenset e (map n_pitch notes) in
  if size <? Z.of_nat (List.length g)
  then map (frozenset e) (slices (List.length g) (Z.to_nat size) g)
  else [g].

(** midi_graph_builder.py:600-639 rescale_velocities with the default targets 32 and 127;
    np.min of an empty array raises ValueError. *)
Definition lmin (l : list Z) : Z := match l with [] => 0 | a :: r => fold_left Z.min r a end.
(** midi_graph_builder.py:600-639 *)
Definition lmax (l : list Z) : Z := match l with [] => 0 | a :: r => fold_left Z.max r a end.
(** midi_graph_builder.py:600-639 *)
Definition clip (lo hi v : Z) : Z := Z.min hi (Z.max lo v).
(** midi_graph_builder.py:600-639 *)
Definition rescale (v : list Z) : res (list Z) :=
  match v with
  | [] => Err ValueError
  | [x] => Ok [clip 32 127 (round_half_even (inject_Z (x * 95) / 127 + 32))]
  | _ =>
    let mn := lmin v in
    let d := lmax v - mn in
    if d <=? 0 then Ok (map (fun _ => clip 0 127 32) v)
    else Ok (map (fun x => Z.quot (clip 0 (127 * d) ((x - mn) * 95 + 32 * d)) d) v)
  end.

(** midi_graph_builder.py:1009-1018: the greatest velocity of each pitch of the subgroup. *)
Definition top_velocity (notes : list note) (p : Z) : Z :=
  lmax (map n_velocity (filter (fun n => n_pitch n =? p) notes)).

(** midi_graph_builder.py:1009-1018 *)
Inductive tensor : Type := Vec (l : list Z) | Mat (rows : list (list Z)).
(** midi_graph_builder.py:1009-1018 *)
Inductive attr_type : Type := TensorAttr | OneHotAttr.
(** torch.zeros(size) with [:len(l)] = l, for len(l) <= size. [midi_graph_builder.py:816-831] *)
Definition padded (size : nat) (l : list Z) : list Z := l ++ repeat 0 (size - List.length l).
(** torch.nn.functional.one_hot: labels outside 0..classes-1 raise RuntimeError.
    [midi_graph_builder.py:834-839] *)
Definition one_hot_row (classes p : Z) : list Z :=
  map (fun i => if Z.of_nat i =? p then 1 else 0) (List.seq 0 (Z.to_nat classes)).
(** midi_graph_builder.py:834-839 *)
Definition one_hot (classes : Z) (l : list Z) : res (list (list Z)) :=
  if forallb (fun p => (0 <=? p) && (p <? classes)) l then Ok (map (one_hot_row classes) l) else Err RuntimeError.
(** midi_graph_builder.py:751-845 create_tensor; [pitches] is list(pitch_set).  More velocities
    than feature_vec_size entries cannot be assigned (RuntimeError); negative entries fail the
    assertions (822-823); one-hot rows and velocities must have the same number (torch.cat). *)
Definition create_tensor (ty : attr_type) (pitches : list Z) (velocity : option (list Z)) (size classes : Z) : res tensor :=
  let n := Z.to_nat size in
  match ty with
  | TensorAttr =>
    let p := firstn n pitches in
    match velocity with
    | Some v =>
      if Nat.ltb n (List.length v) then Err RuntimeError
      else if forallb (Z.leb 0) p && forallb (Z.leb 0) v then Ok (Mat [padded n p; padded n v])
      else Err AssertionError
    | None => Ok (Vec (padded n p))
    end
  | OneHotAttr =>
    bind (one_hot classes pitches) (fun rows =>
    match velocity with
    | Some v => if Nat.eqb (List.length v) (List.length rows)
                then Ok (Mat (map (fun rv => fst rv ++ [snd rv]) (combine rows v)))
                else Err RuntimeError
    | None => Ok (Mat rows)
    end)
  end.
