(** Model of neural_graph_composer/midi_graph_builder.py: connect_instruments.
    The graph is a networkx Graph or DiGraph: its nodes with their attributes and adjacency in insertion order.
    Simplifications: node names are integers (any other name makes midi_seqs[u] raise a TypeError); of the node
    attributes only "label" and "start_time" and of the edge attributes only "weight" are modelled; a label is
    an integer or something that equals no integer. *)
From Verif Require Import PyBase M_SortedDict M_Note M_Events M_Seq M_Chord M_Seqs.
Open Scope Z_scope.

(** midi_graph_builder.py:437-468: the "label" of a node. *)
Inductive glabel : Type := GPitch (p : Z) | GText (s : string).
(** A node: label and start_time if present, and its neighbours (for a DiGraph: successors) with the weights.
    [midi_graph_builder.py:437-468] *)
Record vertex : Type := mkV { v_label : option glabel; v_start : option Q; v_adj : list (Z * Q) }.
(** midi_graph_builder.py:437-468 *)
Definition wgraph : Type := list (Z * vertex).
(** midi_graph_builder.py:437-468 *)
Definition label_eqb (a b : glabel) : bool :=
  match a, b with GPitch x, GPitch y => x =? y | GText x, GText y => String.eqb x y | _, _ => false end.
(** Equality of (label, start_time) tuples. [midi_graph_builder.py:448-451] *)
Definition key_eqb (a b : glabel * Q) : bool := label_eqb (fst a) (fst b) && Qeq_bool (snd a) (snd b).
(** midi_graph_builder.py:447-451 pitch_start_to_node. *)
Definition node_keys (g : wgraph) : res (list ((glabel * Q) * Z)) :=
  fold_left (fun r nx => bind r (fun d =>
      match v_label (snd nx) with
      | None => Err KeyError
      | Some l => match v_start (snd nx) with None => Err KeyError | Some t => Ok (dict_set key_eqb (l, t) (fst nx) d) end
      end)) g (Ok []).
(** graph.nodes[u]["start_time"]. [midi_graph_builder.py:457-458] *)
Definition start_of (g : wgraph) (u : Z) : option Q :=
  match dict_get Z.eqb u g with Some x => v_start x | None => None end.
(** midi_graph_builder.py:437-468 *)
Definition adj_of (g : wgraph) (u : Z) : list (Z * Q) := match dict_get Z.eqb u g with Some x => v_adj x | None => [] end.
(** add_edge(u, v, weight=w) for two nodes: a Graph stores the edge with both ends. [midi_graph_builder.py:468] *)
Definition set_nbr (g : wgraph) (u v : Z) (w : Q) : wgraph :=
  match dict_get Z.eqb u g with
  | Some x => dict_set Z.eqb u (mkV (v_label x) (v_start x) (dict_set Z.eqb v w (v_adj x))) g
  | None => g
  end.
(** midi_graph_builder.py:468 *)
Definition add_wedge (directed : bool) (g : wgraph) (u v : Z) (w : Q) : wgraph :=
  if directed then set_nbr g u v w else set_nbr (set_nbr g u v w) v u w.
(** midi_graph_builder.py:459-468: the body of the two inner loops. *)
Definition link (directed : bool) (keys : list ((glabel * Q) * Z)) (g : wgraph) (un vn : note) : wgraph :=
  if n_overlaps un vn then
    match dict_get key_eqb (GPitch (n_pitch un), n_start un) keys with
    | None => g
    | Some a => match dict_get key_eqb (GPitch (n_pitch vn), n_start vn) keys with
                | None => g
                | Some b => add_wedge directed g a b 1
                end
    end
  else g.
(** midi_graph_builder.py:457-468 *)
Definition link_all (directed : bool) (keys : list ((glabel * Q) * Z)) (us vs : list note) (g : wgraph) : wgraph :=
  fold_left (fun g un => fold_left (fun g vn => link directed keys g un vn) vs g) us g.
(** midi_graph_builder.py:455-468: the body of the loop over the edges.  Every midi_seqs[...] may create a track. *)
Definition connect_edge (directed : bool) (keys : list ((glabel * Q) * Z)) (u v : Z) (st : wgraph * mseqs) : res unit * (wgraph * mseqs) :=
  let '(g, s) := st in
  match ms_getitem s u with
  | (Err e, s1) => (Err e, (g, s1))
  | (Ok qu, s1) =>
    match ms_getitem s1 v with
    | (Err e, s2) => (Err e, (g, s2))
    | (Ok qv, s2) =>
      if i_eqb (q_instr qu) (q_instr qv) then (Ok tt, (g, s2))
      else
        match ms_getitem s2 u with
        | (Err e, s3) => (Err e, (g, s3))
        | (Ok qu, s3) =>
          match start_of g u with
          | None => (Err KeyError, (g, s3))
          | Some tu =>
            match ms_getitem s3 v with
            | (Err e, s4) => (Err e, (g, s4))
            | (Ok qv, s4) =>
              match start_of g v with
              | None => (Err KeyError, (g, s4))
              | Some tv => (Ok tt, (link_all directed keys (filter (fun n => Qeq_bool (n_start n) tu) (q_notes qu))
                                             (filter (fun n => Qeq_bool (n_start n) tv) (q_notes qv)) g, s4))
              end
            end
          end
        end
    end
  end.
(** for u, v in graph.edges, for one u: a Graph iterates over a copy of the neighbours and skips those
    already done; a DiGraph iterates over the dictionary itself, which raises a RuntimeError as soon as its
    size ([size] at the start) has changed. [midi_graph_builder.py:454] *)
Fixpoint walk_nbrs (directed : bool) (keys : list ((glabel * Q) * Z)) (u : Z) (size : nat) (seen nbrs : list Z) (st : wgraph * mseqs)
  : res unit * (wgraph * mseqs) :=
  match nbrs with
  | [] => (Ok tt, st)
  | v :: r =>
    if negb directed && existsb (Z.eqb v) seen then walk_nbrs directed keys u size seen r st
    else match connect_edge directed keys u v st with
         | (Err e, st') => (Err e, st')
         | (Ok _, st') => if directed && negb (Nat.eqb (List.length (adj_of (fst st') u)) size) then (Err RuntimeError, st')
                          else walk_nbrs directed keys u size seen r st'
         end
  end.
(** midi_graph_builder.py:454: over the nodes; the neighbours are those present when their node is reached. *)
Fixpoint walk_nodes (directed : bool) (keys : list ((glabel * Q) * Z)) (nodes seen : list Z) (st : wgraph * mseqs) : res unit * (wgraph * mseqs) :=
  match nodes with
  | [] => (Ok tt, st)
  | u :: r =>
    let nb := adj_of (fst st) u in
    match walk_nbrs directed keys u (List.length nb) seen (map fst nb) st with
    | (Err e, st') => (Err e, st')
    | (Ok _, st') => walk_nodes directed keys r (u :: seen) st'
    end
  end.
(** midi_graph_builder.py:436-468 connect_instruments. *)
Definition connect_instruments (directed : bool) (g : wgraph) (s : mseqs) : res unit * (wgraph * mseqs) :=
  match node_keys g with
  | Err e => (Err e, (g, s))
  | Ok keys => walk_nodes directed keys (map fst g) [] (g, s)
  end.
