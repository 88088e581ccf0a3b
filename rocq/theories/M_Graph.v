(** Model of neural_graph_composer/midi_graph_builder.py, second part: the networkx graph, its
    construction (build_sequence, build), graphs() and the graph queries.
    Simplifications: edge weights (integral floats) are integers; librosa note names are
    represented by the pitches; the conversion from_midi_networkx (221-335) to a PyG object is an
    oracle that either raises or yields an object holding the graph's nodes and edges in networkx
    order ([pyg], [edge_index]); its feature matrix is not modelled.  Logging is not modelled. *)
From Verif Require Import PyBase M_Note M_Events M_Seq M_Chord.
Open Scope Z_scope.

(** nx.DiGraph: nodes with their attributes in insertion order; edges with their weight in
    insertion order (the adjacency of a node is in that order too). [midi_graph_builder.py:1051] *)
Inductive label : Type := LHash (h : Z) | LNames (pitches : list Z).
(** midi_graph_builder.py:1051 *)
Inductive nattr : Type := NChord (x : tensor) (l : label) (node_hash : Z) | NMerged (nodes : list Z).
(** midi_graph_builder.py:1051 *)
Record digraph : Type := mkG { g_nodes : list (Z * nattr); g_edges : list ((Z * Z) * Z) }.
(** midi_graph_builder.py:1051 *)
Definition g_empty : digraph := mkG [] [].
(** midi_graph_builder.py:1051 *)
Definition edge_eqb (a b : Z * Z) : bool := (fst a =? fst b) && (snd a =? snd b).
(** midi_graph_builder.py:1051 *)
Definition add_node (g : digraph) (h : Z) (a : nattr) : digraph := mkG (dict_set Z.eqb h a (g_nodes g)) (g_edges g).
(** add_edge(u, v, weight=w), both already nodes. [midi_graph_builder.py:1056] *)
Definition add_edge (g : digraph) (u v w : Z) : digraph := mkG (g_nodes g) (dict_set edge_eqb (u, v) w (g_edges g)).
(** midi_graph_builder.py:1056 *)
Definition edge_weight (g : digraph) (u v : Z) : option Z := dict_get edge_eqb (u, v) (g_edges g).
(** midi_graph_builder.py:1056 *)
Definition has_edge (g : digraph) (u v : Z) : bool := match edge_weight g u v with Some _ => true | None => false end.
(** midi_graph_builder.py:1056 *)
Definition has_node (g : digraph) (h : Z) : bool := match dict_get Z.eqb h (g_nodes g) with Some _ => true | None => false end.
(** midi_graph[u][v]['weight'] += 1.0. [midi_graph_builder.py:1062-1068] *)
Definition bump (g : digraph) (u v : Z) : digraph :=
  match edge_weight g u v with Some w => add_edge g u v (w + 1) | None => g end.

(** midi_graph_builder.py:1050-1070: one chord put into the graph. *)
Definition place (g : digraph) (last : option Z) (h : Z) (x : tensor) (names : list Z) : digraph :=
  match last with
  | None => add_edge (add_node g h (NChord x (LHash h) h)) h h 1
  | Some p =>
    if has_edge g h p then bump g h p
    else if has_edge g p h then bump g p h
    else add_edge (add_node g h (NChord x (LNames names) h)) p h 1
  end.

(** The PyG object: the graph it came from and the attributes set by graphs().
    [midi_graph_builder.py:1115-1166] *)
Record pyg : Type := mkP { p_graph : digraph; p_y : option (list Z); p_label : option (list Z) }.
(** midi_graph_builder.py:138-143: the mutable attributes of the builder. *)
Record builder : Type := mkB {
  b_n2h : list (list Z * Z); b_h2n : list (Z * list Z); b_h2i : list (Z * Z); b_i2h : list (Z * Z);
  b_pyg : list pyg; b_sub : list digraph }.
(** midi_graph_builder.py:138-143 *)
Definition b_new : builder := mkB [] [] [] [] [] [].

(** midi_graph_builder.py:138-143 *)
Definition same_set (a b : list Z) : bool :=
  forallb (fun x => existsb (Z.eqb x) b) a && forallb (fun x => existsb (Z.eqb x) a) b.
(** midi_graph_builder.py:1024-1034: line 1027 looks an integer up among frozenset keys, which
    never succeeds, so 1028-1029 always run. *)
Definition register (b : builder) (h : Z) (chunk : list Z) : builder :=
  let n2h := dict_set same_set chunk h (b_n2h b) in
  let h2n := dict_set Z.eqb h chunk (b_h2n b) in
  match dict_get Z.eqb h (b_h2i b) with
  | Some _ => mkB n2h h2n (b_h2i b) (b_i2h b) (b_pyg b) (b_sub b)
  | None =>
    let k := Z.of_nat (List.length h2n) in
    mkB n2h h2n (dict_set Z.eqb h k (b_h2i b)) (dict_set Z.eqb k h (b_i2h b)) (b_pyg b) (b_sub b)
  end.

(** midi_graph_builder.py:1024-1034, 1027, 1028-1029 *)
Record config : Type := mkC { c_size : Z; c_buckets : Z; c_type : attr_type; c_filter : bool; c_tolerance : Q; c_velocity : bool }.

(** midi_graph_builder.py:1004-1071: one subgroup of the chord [notes]. *)
Definition visit (e : env) (c : config) (notes : list note) (st : builder * digraph * option Z) (chunk : list Z)
  : res unit * (builder * digraph * option Z) :=
  let '(b, g, last) := st in
  let vel := if c_velocity c
             then bind (rescale (map (top_velocity notes) chunk)) (fun v => Ok (Some v))
             else Ok None in
  match vel with
  | Err x => (Err x, st)
  | Ok v =>
    let h := e_shash e chunk in
    let b1 := register b h chunk in
    match create_tensor (c_type c) chunk v (c_size c) 127 with
    | Err x => (Err x, (b1, g, last))
    | Ok x => (Ok tt, (b1, place g last h x (frozenset e (map n_pitch notes)), Some h))
    end
  end.
(** midi_graph_builder.py:1004-1071 *)
Fixpoint each {A T} (f : T -> A -> res unit * T) (st : T) (l : list A) : res unit * T :=
  match l with
  | [] => (Ok tt, st)
  | a :: r => match f st a with (Err e, st') => (Err e, st') | (Ok _, st') => each f st' r end
  end.
(** midi_graph_builder.py:983-1071: one sorted key. *)
Definition visit_group (e : env) (c : config) (st : builder * digraph * option Z) (notes : list note)
  : res unit * (builder * digraph * option Z) :=
  each (visit e c notes) st (split_chord e (c_size c) notes).
(** midi_graph_builder.py:959-960: the groups in order of their sorted keys. *)
Definition in_key_order (data : list (Z * list note)) : list (list note) :=
  map snd (py_sort (fun a b => fst a <? fst b) data).
(** midi_graph_builder.py:847-1077 build_sequence for arguments of the declared types. *)
Definition build_sequence (e : env) (b : builder) (s : seq) (c : config) (g : option digraph) : res digraph * builder :=
  if (c_size c <=? 0) || (128 <? c_size c) then (Err ValueError, b)
  else if c_buckets c <=? 0 then (Err ValueError, b)
  else if Qltb (c_tolerance c) 0 || Qltb 1 (c_tolerance c) then (Err ValueError, b)
  else match compute_data e s (c_tolerance c) (c_filter c) true 2 with
  | Err x => (Err x, b)
  | Ok ([], _) => (Ok (match g with Some g => g | None => g_empty end), b)
  | Ok (data, _) =>
    let start :=
      match g with
      | None => Ok (g_empty, None)
      | Some g0 => match rev (g_nodes g0) with
                   | [] => Err IndexError
                   | (h, _) :: _ => Ok (g0, Some h)
                   end
      end in
    match start with
    | Err x => (Err x, b)
    | Ok (g0, last) =>
      match each (visit_group e c) (b, g0, last) (in_key_order data) with
      | (Err x, (b', _, _)) => (Err x, b')
      | (Ok _, (b', g', _)) => (Ok g', b')
      end
    end
  end.

(** midi_graph_builder.py:470-577 build on the tracks of a multi-track object, in order.  [conv]
    is the outcome of from_midi_networkx (None: success).  nx.compose(large_graph, g) of a graph
    with itself (565; build_sequence returned the same object) is a copy. *)
Definition keep_graph (b : builder) (g : digraph) : builder :=
  mkB (b_n2h b) (b_h2n b) (b_h2i b) (b_i2h b) (b_pyg b ++ [mkP g None None]) (b_sub b ++ [g]).
(** midi_graph_builder.py:470-577, 565 *)
Fixpoint build_tracks (e : env) (conv : digraph -> option exn) (c : config) (per_instrument : bool)
         (b : builder) (large : option digraph) (l : list seq) : res (option digraph) * builder :=
  match l with
  | [] => (Ok large, b)
  | s :: r =>
    if i_drum (q_instr s) then build_tracks e conv c per_instrument b large r
    else if Nat.eqb (List.length (q_notes s)) 1 then build_tracks e conv c per_instrument b large r
    else match build_sequence e b s c (if per_instrument then None else large) with
    | (Err x, b1) => (Err x, b1)
    | (Ok g, b1) =>
      match g_nodes g with
      | [] => build_tracks e conv c per_instrument b1 large r
      | _ =>
        if per_instrument then
          match conv g with
          | Some x => (Err x, b1)
          | None => build_tracks e conv c per_instrument (keep_graph b1 g) large r
          end
        else build_tracks e conv c per_instrument b1 (Some g) r
      end
    end
  end.
(** midi_graph_builder.py:470-577, 565 *)
Definition build (e : env) (conv : digraph -> option exn) (b : builder) (l : list seq) (c : config) (per_instrument : bool) : res unit * builder :=
  match build_tracks e conv c per_instrument b None l with
  | (Err x, b1) => (Err x, b1)
  | (Ok None, b1) => (Ok tt, b1)
  | (Ok (Some g), b1) => match conv g with Some x => (Err x, b1) | None => (Ok tt, keep_graph b1 g) end
  end.

(** midi_graph_builder.py:1115-1166 graphs(skip_label, is_sanity_check) as a generator: where it is
    suspended. *)
Inductive gen : Type := GStart | GYielded | GDone.
(** midi_graph_builder.py:1115-1166 *)
Fixpoint lookup_all (m : list (Z * Z)) (l : list Z) : res (list Z) :=
  match l with
  | [] => Ok []
  | h :: r => match dict_get Z.eqb h m with
              | None => Err KeyError
              | Some i => bind (lookup_all m r) (fun is => Ok (i :: is))
              end
  end.
(** The node_hash attribute of the PyG object. [midi_graph_builder.py:1115-1166] *)
Definition node_hashes (p : pyg) : list Z := map fst (g_nodes (p_graph p)).
(** next() of the generator: the object yielded, or StopIteration.  Resuming after the first
    yield empties the list being iterated (1163), so the loop ends.  The sanity check asserts that
    every known hash has an index (1130-1131) and then calls .item() on the Python integers of the
    label list (1141), which raises AttributeError as soon as there is a node.
    [midi_graph_builder.py:1115-1166] *)
Definition with_pyg (b : builder) (l : list pyg) (sub : list digraph) : builder :=
  mkB (b_n2h b) (b_h2n b) (b_h2i b) (b_i2h b) l sub.
(** 1163, 1130-1131, 1141, midi_graph_builder.py:1115-1166 *)
Definition graphs_next (b : builder) (skip_label sanity : bool) (s : gen) : res pyg * builder * gen :=
  match s with
  | GStart =>
    match b_h2n b with
    | [] => (Err ValueError, b, GDone)
    | _ =>
      if sanity && negb (forallb (fun kv => match dict_get Z.eqb (fst kv) (b_h2i b) with Some _ => true | None => false end) (b_h2n b))
      then (Err AssertionError, b, GDone)
      else match b_pyg b with
      | [] => (Err StopIteration, b, GDone)
      | p :: r =>
        match lookup_all (b_h2i b) (node_hashes p) with
        | Err x => (Err x, b, GDone)
        | Ok is =>
          if sanity && negb (Nat.eqb (List.length is) 0)
          then (Err AttributeError, with_pyg b (mkP (p_graph p) (Some is) (Some is) :: r) (b_sub b), GDone)
          else
            let p' := mkP (p_graph p) (Some is) (if skip_label then None else Some is) in
            (Ok p', with_pyg b (p' :: r) (b_sub b), GYielded)
        end
      end
    end
  | GYielded => (Err StopIteration, with_pyg b [] [], GDone)
  | GDone => (Err StopIteration, b, GDone)
  end.
(** list(builder.graphs()): next() until it raises; another exception than StopIteration propagates.
    [midi_graph_builder.py:1115-1166] *)
Fixpoint graphs_drain (fuel : nat) (b : builder) (skip_label sanity : bool) (s : gen) : res (list pyg) * builder :=
  match fuel with
  | O => (Ok [], b)
  | S f => match graphs_next b skip_label sanity s with
           | (Err StopIteration, b1, _) => (Ok [], b1)
           | (Err x, b1, _) => (Err x, b1)
           | (Ok p, b1, s1) => match graphs_drain f b1 skip_label sanity s1 with
                               | (Ok l, b2) => (Ok (p :: l), b2)
                               | (Err x, b2) => (Err x, b2)
                               end
           end
  end.

(** midi_graph_builder.py:244-252: integer labels by position and the edge list in networkx order
    (by source node, then insertion). *)
Definition out_edges (g : digraph) : list ((Z * Z) * Z) :=
  flat_map (fun n => filter (fun e => fst (fst e) =? fst n) (g_edges g)) (g_nodes g).
(** midi_graph_builder.py:244-252 *)
Fixpoint position (h : Z) (l : list Z) : nat :=
  match l with [] => O | a :: r => if a =? h then O else S (position h r) end.
(** midi_graph_builder.py:244-252 *)
Definition edge_index (g : digraph) : list (nat * nat) :=
  let ns := map fst (g_nodes g) in map (fun e => (position (fst (fst e)) ns, position (snd (fst e)) ns)) (out_edges g).
(** midi_graph_builder.py:244-252 *)
Definition edge_weights (g : digraph) : list Z := map snd (out_edges g).

(** midi_graph_builder.py:337-356 neighbors, 358-394 is_connected and 396-409 get_edge_connected on
    non-empty pitch lists; networkx raises NetworkXError (here KeyError) for a missing node. *)
Definition successors (g : digraph) (h : Z) : res (list Z) :=
  if has_node g h then Ok (map (fun e => snd (fst e)) (filter (fun e => fst (fst e) =? h) (g_edges g))) else Err KeyError.
(** midi_graph_builder.py:337-356, 358-394, 396-409 *)
Definition neighbors (e : env) (g : digraph) (u : list Z) : res (list Z) :=
  successors g (match u with [] => 0 | _ => e_shash e (frozenset e u) end).
(** midi_graph_builder.py:337-356, 358-394, 396-409 *)
Definition is_connected (e : env) (g : digraph) (u v : list Z) : res bool :=
  bind (successors g (e_shash e (frozenset e v))) (fun l => Ok (existsb (Z.eqb (e_shash e (frozenset e u))) l)).
(** midi_graph_builder.py:337-356, 358-394, 396-409 *)
Definition get_edge_connected (e : env) (g : digraph) (u v : list Z) : option (Z * Z) :=
  let hu := e_shash e (frozenset e u) in
  let hv := e_shash e (frozenset e v) in
  if has_node g hu && has_node g hv && has_edge g hu hv then Some (hu, hv) else None.

(** midi_graph_builder.py:411-434 merge_nodes on a DiGraph. *)
Definition remove_node (g : digraph) (h : Z) : res digraph :=
  if has_node g h
  then Ok (mkG (filter (fun n => negb (fst n =? h)) (g_nodes g))
               (filter (fun e => negb ((fst (fst e) =? h) || (snd (fst e) =? h))) (g_edges g)))
  else Err KeyError.
(** midi_graph_builder.py:411-434 *)
Fixpoint merge_edges (g : digraph) (new : Z) (all nodes : list Z) : res digraph :=
  match nodes with
  | [] => Ok g
  | n :: r =>
    if has_node g n
    then merge_edges (fold_left (fun g e => if existsb (Z.eqb (snd (fst e))) all then g else add_edge g new (snd (fst e)) (snd e))
                                (filter (fun e => fst (fst e) =? n) (g_edges g)) g) new all r
    else Err KeyError
  end.
(** midi_graph_builder.py:411-434 *)
Fixpoint remove_nodes (g : digraph) (nodes : list Z) : res digraph :=
  match nodes with [] => Ok g | n :: r => bind (remove_node g n) (fun g' => remove_nodes g' r) end.
(** midi_graph_builder.py:411-434 *)
Definition merge_nodes (g : digraph) (nodes : list Z) : res (Z * digraph) :=
  match g_nodes g with
  | [] => Err ValueError
  | _ =>
    let new := lmax (map fst (g_nodes g)) + 1 in
    bind (merge_edges (add_node g new (NMerged nodes)) new nodes nodes) (fun g1 =>
    bind (remove_nodes g1 nodes) (fun g2 => Ok (new, g2)))
  end.
