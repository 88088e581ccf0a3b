(** Model of neural_graph_composer/transforms.py, neural_graph_composer/utils.py and of
    ngc_shared.py: Experiments.remove_nodes_and_edges, split, dataset_split_mask.
    Simplifications: tensors are lists (rows of x flattened), numbers are exact; random draws
    (torch.randperm, torch.rand, np.random.choice) are arguments; printing is not modelled. *)
From Coq Require Import Qround.
From Verif Require Import PyBase M_Events M_Load.
Open Scope Z_scope.

(** Indexing of torch and numpy: negative indices count from the end; None is IndexError.
    [transforms.py:86-183] *)
Definition wrap (n : nat) (i : Z) : option nat :=
  if (0 <=? i) && (i <? Z.of_nat n) then Some (Z.to_nat i)
  else if (- Z.of_nat n <=? i) && (i <? 0) then Some (Z.to_nat (i + Z.of_nat n)) else None.
(** l[idx] for an index tensor. [transforms.py:86-183] *)
Fixpoint take {A} (l : list A) (idx : list nat) : res (list A) :=
  match idx with
  | [] => Ok []
  | i :: r => match nth_error l i with
              | None => Err IndexError
              | Some x => bind (take l r) (fun t => Ok (x :: t))
              end
  end.
(** l[mask] for a boolean mask. [transforms.py:86-183] *)
Fixpoint where_true {A} (mask : list bool) (l : list A) : list A :=
  match mask, l with
  | b :: m, x :: r => if b then x :: where_true m r else where_true m r
  | _, _ => []
  end.
(** transforms.py:86-183 *)
Definition msel {A} (mask : list bool) (l : list A) : res (list A) :=
  if Nat.eqb (List.length mask) (List.length l) then Ok (where_true mask l) else Err IndexError.
(** l[:k]. [transforms.py:86-183] *)
Definition prefix {A} (k : Z) (l : list A) : list A :=
  firstn (Z.to_nat (if k <? 0 then k + Z.of_nat (List.length l) else k)) l.
(** transforms.py:86-183 *)
Definition in_nats (l : list nat) (i : nat) : bool := existsb (Nat.eqb i) l.

(** torch_geometric.data.Data.  The edge index is a 2 x m tensor, or a one-dimensional one.  None
    stands for a missing attribute (for y and edge_attr: the value None). [transforms.py:26-183] *)
Inductive edges : Type := EPairs (l : list (Z * Z)) | EFlat (l : list Z).
(** transforms.py:26-183 *)
Record data : Type := mkD {
  d_num : option nat; d_x : list (list Q); d_ei : edges; d_ea : option (list Q); d_y : option (list Z);
  d_train : option (list bool); d_val : option (list bool); d_test : option (list bool);
  d_pos : option (option (list Q)); d_neg : option (option (list Q));
  d_posi : option (list (Z * Z)); d_negi : option (list (Z * Z)); d_hash : option (list Z); d_directed : bool }.
(** Data.num_nodes: the stored number, otherwise the number of rows of x. [transforms.py:29-183] *)
Definition num_nodes (d : data) : nat := match d_num d with Some n => n | None => List.length (d_x d) end.
(** transforms.py:29-183 *)
Definition set_x (d : data) (x : list (list Q)) : data :=
  mkD (d_num d) x (d_ei d) (d_ea d) (d_y d) (d_train d) (d_val d) (d_test d) (d_pos d) (d_neg d) (d_posi d) (d_negi d) (d_hash d) (d_directed d).
(** transforms.py:29-183 *)
Definition set_edges (d : data) (ei : edges) (ea : option (list Q)) : data :=
  mkD (d_num d) (d_x d) ei ea (d_y d) (d_train d) (d_val d) (d_test d) (d_pos d) (d_neg d) (d_posi d) (d_negi d) (d_hash d) (d_directed d).
(** transforms.py:29-183 *)
Definition set_y (d : data) (y : option (list Z)) : data :=
  mkD (d_num d) (d_x d) (d_ei d) (d_ea d) y (d_train d) (d_val d) (d_test d) (d_pos d) (d_neg d) (d_posi d) (d_negi d) (d_hash d) (d_directed d).
(** transforms.py:29-183 *)
Definition set_masks (d : data) (a b c : option (list bool)) : data :=
  mkD (d_num d) (d_x d) (d_ei d) (d_ea d) (d_y d) a b c (d_pos d) (d_neg d) (d_posi d) (d_negi d) (d_hash d) (d_directed d).
(** transforms.py:29-183 *)
Definition set_num (d : data) (n : nat) : data :=
  mkD (Some n) (d_x d) (d_ei d) (d_ea d) (d_y d) (d_train d) (d_val d) (d_test d) (d_pos d) (d_neg d) (d_posi d) (d_negi d) (d_hash d) (d_directed d).
(** transforms.py:29-183 *)
Definition set_directed (d : data) : data :=
  mkD (d_num d) (d_x d) (d_ei d) (d_ea d) (d_y d) (d_train d) (d_val d) (d_test d) (d_pos d) (d_neg d) (d_posi d) (d_negi d) (d_hash d) true.

(** x.reshape(n, -1). [transforms.py:29-35] *)
Fixpoint chunk {A} (n w : nat) (l : list A) : list (list A) :=
  match n with O => [] | S m => firstn w l :: chunk m w (skipn w l) end.
(** transforms.py:29-35 *)
Definition reshape (n : nat) (x : list (list Q)) : res (list (list Q)) :=
  let flat := List.concat x in
  match n with
  | O => Err RuntimeError
  | _ => if Nat.eqb (Nat.modulo (List.length flat) n) 0 then Ok (chunk n (Nat.div (List.length flat) n) flat) else Err RuntimeError
  end.
(** torch_geometric.utils.degree(index, num_nodes): scatter_add_ of ones. [transforms.py:29-35] *)
Definition degree (n : nat) (index : list Z) : res (list Z) :=
  if forallb (fun i => (0 <=? i) && (i <? Z.of_nat n)) index
  then Ok (fold_left (fun acc i => upd_nth acc (Z.to_nat i) (fun v => v + 1)) index (repeat 0 n))
  else Err RuntimeError.
(** transforms.py:26-35 AddDegreeTransform.__call__ (changes the object and returns it).  A
    one-dimensional edge index (line 31: its entry 0, a scalar) is not modelled precisely: error. *)
Definition add_degree (d : data) : res unit * data :=
  match reshape (num_nodes d) (d_x d) with
  | Err e => (Err e, d)
  | Ok x =>
    match d_ei d with
    | EFlat _ => (Err RuntimeError, d)
    | EPairs l =>
      match degree (num_nodes d) (map fst l) with
      | Err e => (Err e, d)
      | Ok deg => (Ok tt, set_x (set_directed d) (map (fun rd => fst rd ++ [inject_Z (snd rd)]) (combine x deg)))
      end
    end
  end.

(** transforms.py:111-135 filter_adj; None for edge_attr returns the filtered edge index alone. *)
Definition edge_mask (mask : list bool) (l : list (Z * Z)) : res (list bool) :=
  if forallb (fun ab => match wrap (List.length mask) (fst ab), wrap (List.length mask) (snd ab) with Some _, Some _ => true | _, _ => false end) l
  then Ok (map (fun ab => match wrap (List.length mask) (fst ab), wrap (List.length mask) (snd ab) with
                          | Some i, Some j => nth i mask false && nth j mask false | _, _ => false end) l)
  else Err IndexError.
(** transforms.py:111-135 *)
Definition adj_size (l : list (Z * Z)) (n : option nat) : res nat :=
  match n with
  | Some n => Ok n
  | None => match l with
            | [] => Err RuntimeError
            | (a, b) :: r => let m := fold_left Z.max (List.concat (map (fun ab => [fst ab; snd ab]) l)) (Z.max a b) in
                             if m <? -1 then Err RuntimeError else Ok (Z.to_nat (m + 1))
            end
  end.
(** transforms.py:111-135 *)
Definition filter_adj (l : list (Z * Z)) (ea : option (list Q)) (keep : list nat) (n : option nat) : res (list (Z * Z) * option (list Q)) :=
  bind (adj_size l n) (fun n =>
  if forallb (fun i => Nat.ltb i n) keep then
    bind (edge_mask (map (in_nats keep) (seq 0 n)) l) (fun m =>
    match ea with
    | Some a => bind (msel m l) (fun l' => bind (msel m a) (fun a' => Ok (l', Some a')))
    | None => bind (msel m l) (fun l' => Ok (l', None))
    end)
  else Err IndexError).
(** An attribute indexed by node: missing (AttributeError), or too short (IndexError).
    [transforms.py:86-110] *)
Definition take_attr {A} (a : option (list A)) (idx : list nat) (missing : exn) : res (option (list A)) :=
  match a with None => Err missing | Some l => bind (take l idx) (fun t => Ok (Some t)) end.
(** transforms.py:86-109 RandomNodeDrop.__call__; [perm] is torch.randperm(num_nodes).  Without
    edge attributes 98-99 unpack the two rows of the filtered edge index into edge_index and
    edge_attr.  A one-dimensional edge index cannot be unpacked in 128 (unless it has two
    entries, not modelled). *)
Definition node_drop (p : Q) (perm : list nat) (d : data) : res unit * data :=
  let n := num_nodes d in
  let drop := prefix (Qtrunc (p * inject_Z (Z.of_nat n))) perm in
  let remain := filter (fun i => negb (in_nats drop i)) (seq 0 n) in
  match d_ei d with
  | EFlat _ => (Err ValueError, d)
  | EPairs l =>
    match filter_adj l (d_ea d) remain (Some n) with
    | Err e => (Err e, d)
    | Ok (l', ea') =>
      let d1 := match ea' with
                | Some a => set_edges d (EPairs l') (Some a)
                | None => set_edges d (EFlat (map fst l')) (Some (map (fun ab => inject_Z (snd ab)) l'))
                end in
      match take (d_x d) remain with
      | Err e => (Err e, d1)
      | Ok x =>
        let d2 := set_x d1 x in
        match take_attr (d_y d) remain TypeError with
        | Err e => (Err e, d2)
        | Ok y =>
          let d3 := set_y d2 y in
          match take_attr (d_train d) remain AttributeError with
          | Err e => (Err e, d3)
          | Ok a =>
            match take_attr (d_val d) remain AttributeError with
            | Err e => (Err e, set_masks d3 a (d_val d) (d_test d))
            | Ok b =>
              match take_attr (d_test d) remain AttributeError with
              | Err e => (Err e, set_masks d3 a b (d_test d))
              | Ok c => (Ok tt, set_num (set_masks d3 a b c) (List.length x))
              end
            end
          end
        end
      end
    end
  end.

(** transforms.py:151-183 RandomEdgeDrop.__call__; [draws] is torch.rand(num_edges).  Returns a
    new object. *)
Definition opt_get {A B} (a : option A) (f : A -> res B) : res B := match a with None => Err AttributeError | Some x => f x end.
(** transforms.py:151-183 *)
Definition edge_drop (p : Q) (draws : list Q) (d : data) : res data :=
  match d_ei d with
  | EFlat _ => Err IndexError
  | EPairs l =>
    let mask := map (fun r => Qle_bool p r) draws in
    bind (msel mask l) (fun l' =>
    bind (match d_ea d with None => Ok None | Some a => bind (msel mask a) (fun a' => Ok (Some a')) end) (fun ea =>
    opt_get (d_pos d) (fun pos =>
    bind (match pos with None => Ok None | Some _ => opt_get (d_neg d) (fun neg => Ok neg) end) (fun both =>
    bind (match both with
          | None => Ok (None, None)
          | Some _ => opt_get (d_posi d) (fun pi => bind (msel mask pi) (fun pi' => opt_get (d_negi d) (fun ni => bind (msel mask ni) (fun ni' => Ok (Some pi', Some ni')))))
          end) (fun pn =>
    opt_get (d_neg d) (fun neg =>
    opt_get (d_train d) (fun tr => opt_get (d_val d) (fun va => opt_get (d_test d) (fun te => opt_get (d_hash d) (fun h =>
      Ok (mkD None (d_x d) (EPairs l') ea (d_y d) (Some tr) (Some va) (Some te) (Some pos) (Some neg) (fst pn) (snd pn) (Some h) false)))))))))))
  end.

(** ngc_shared.py:391-407 remove_nodes_and_edges; [chosen] is np.random.choice(num_nodes, k,
    replace=False), which refuses k outside 0..num_nodes. *)
Definition remove_nodes (ratio : Q) (chosen : list nat) (d : data) : res unit * data :=
  let n := num_nodes d in
  let k := Qtrunc (inject_Z (Z.of_nat n) * ratio) in
  if (k <? 0) || (Z.of_nat n <? k) then (Err ValueError, d)
  else
    let mask := map (fun i => negb (in_nats chosen i)) (seq 0 n) in
    match msel mask (d_x d) with
    | Err e => (Err e, d)
    | Ok x =>
      let d1 := set_x d x in
      match d_ei d with
      | EFlat _ => (Err IndexError, d1)
      | EPairs l =>
        match bind (edge_mask mask l) (fun m => msel m l) with
        | Err e => (Err e, d1)
        | Ok l' => (Ok tt, set_edges d1 (EPairs l') (d_ea d))
        end
      end
    end.

(** ngc_shared.py:378-389 split, [shuffled] = ds.shuffle() and [perm] the permutation drawn by
    random_split. *)
Definition split_ds {A} (ratio : Q) (shuffled : list A) (perm : list nat) : res (list A * list A) :=
  let n := Z.of_nat (List.length shuffled) in
  let k := Qtrunc (inject_Z n * ratio) in
  if (k <? 0) || (n <? k) then Err ValueError
  else bind (take shuffled (firstn (Z.to_nat k) perm)) (fun a => bind (take shuffled (skipn (Z.to_nat k) perm)) (fun b => Ok (a, b))).

(** utils.py:7-16 np_onehot. *)
Definition hot_row (depth : nat) (i : nat) : list bool := upd_nth (repeat false depth) i (fun _ => true).
(** utils.py:7-16 *)
Fixpoint hot_rows (depth : nat) (indices : list Z) : res (list (list bool)) :=
  match indices with
  | [] => Ok []
  | i :: r => match wrap depth i with
              | None => Err IndexError
              | Some k => bind (hot_rows depth r) (fun t => Ok (hot_row depth k :: t))
              end
  end.
(** utils.py:7-16 *)
Definition np_onehot (indices : list Z) (depth : Z) : res (list (list bool)) :=
  if depth <? 0 then Err ValueError else hot_rows (Z.to_nat depth) indices.

(** utils.py:29-65 pretty_midi_to_one_hot.  An instrument: its notes (pitch, start, end) and the
    times of its pitch bends and control changes (pretty_midi Instrument.get_end_time is the
    greatest of all ends and times, 0 without any). *)
Record roll_note : Type := mkRN { rn_pitch : Z; rn_start : Q; rn_end : Q }.
(** utils.py:29-65 *)
Record roll_inst : Type := mkRI { ri_notes : list roll_note; ri_times : list Q }.
(** utils.py:29-65 *)
Definition end_time (i : roll_inst) : Q :=
  match map rn_end (ri_notes i) ++ ri_times i with [] => 0%Q | t :: r => fold_left Qmaxb r t end.
(** utils.py:29-65 *)
Definition set2 (m : list (list Z)) (r c : nat) (v : Z) : list (list Z) := upd_nth m r (fun row => upd_nth row c (fun _ => v)).
(** utils.py:29-65 *)
Definition put_cell (m : list (list Z)) (w : nat) (p c v : Z) : res (list (list Z)) :=
  match wrap 128 p, wrap w c with Some r, Some k => Ok (set2 m r k v) | _, _ => Err IndexError end.
(** utils.py:29-65 *)
Fixpoint roll_notes (fs : Q) (w : nat) (m : list (list Z)) (l : list roll_note) : res (list (list Z)) :=
  match l with
  | [] => Ok m
  | n :: r =>
    bind (put_cell m w (rn_pitch n) (Qtrunc (rn_start n * fs)) 1) (fun m1 =>
    bind (put_cell m1 w (rn_pitch n) (Qtrunc (rn_end n * fs)) 0) (fun m2 => roll_notes fs w m2 r))
  end.
(** utils.py:29-65 *)
Definition roll_one (fs : Q) (i : roll_inst) : res (nat * list (list Z)) :=
  let w := Qtrunc (fs * end_time i) + 1 in
  if w <? 0 then Err ValueError
  else bind (roll_notes fs (Z.to_nat w) (repeat (repeat 0 (Z.to_nat w)) 128) (ri_notes i)) (fun m => Ok (Z.to_nat w, m)).
(** utils.py:29-65 *)
Fixpoint rolls (fs : Q) (l : list roll_inst) : res (list (nat * list (list Z))) :=
  match l with [] => Ok [] | i :: r => bind (roll_one fs i) (fun m => bind (rolls fs r) (fun t => Ok (m :: t))) end.
(** utils.py:29-65 *)
Fixpoint add_row (a b : list Z) : list Z :=
  match a, b with x :: a', y :: b' => (x + y) :: add_row a' b' | a, [] => a | [], _ => [] end.
(** utils.py:29-65 *)
Fixpoint add_rows (a b : list (list Z)) : list (list Z) :=
  match a, b with x :: a', y :: b' => add_row x y :: add_rows a' b' | a, [] => a | [], _ => [] end.
(** utils.py:29-65 *)
Definition clip1 (v : Z) : Z := Z.max (-1) (Z.min v 1).
(** utils.py:29-65 *)
Definition one_hot_roll (l : list roll_inst) (fs : Q) : res (list (list Z)) :=
  bind (rolls fs l) (fun os =>
  match os with
  | [] => Err ValueError
  | _ => let w := fold_left Nat.max (map fst os) 0%nat in
         Ok (map (map clip1) (fold_left add_rows (map snd os) (repeat (repeat 0 w) 128)))
  end).
