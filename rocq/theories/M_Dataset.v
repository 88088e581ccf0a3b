(** Model of neural_graph_composer/midi_dataset.py and of the conversion of networkx graphs to PyG
    objects in neural_graph_composer/midi_graph_builder.py. *)
From Coq Require Import QArith.
From Verif Require Import PyBase M_Note M_Events M_Seq M_Chord M_Graph M_Experiments.
Open Scope Z_scope.

(** ** Hash/index mapper *)
(** class NodeHashIndexMapper, midi_dataset.py:21-25 *)
Record mapper : Type := mkM { m_h2i : list (Z * Z); m_i2h : list (Z * Z); m_next : Z }.
(** midi_dataset.py:21-25 *)
Definition m_new : mapper := mkM [] [] 0.
(** add_node_hash, midi_dataset.py:31-35 *)
Definition add_node_hash (m : mapper) (h : Z) : mapper :=
  match dict_get Z.eqb h (m_h2i m) with
  | Some _ => m
  | None => mkM (dict_set Z.eqb h (m_next m) (m_h2i m)) (dict_set Z.eqb (m_next m) h (m_i2h m)) (m_next m + 1)
  end.
(** merge_with, midi_dataset.py:27-29 (merging with itself adds nothing, so the iteration is safe) *)
Definition merge_with (m other : mapper) : mapper := fold_left add_node_hash (map fst (m_h2i other)) m.
(** get_index and get_node_hash, midi_dataset.py:37-41 *)
Definition get_index (m : mapper) (h : Z) : res Z := match dict_get Z.eqb h (m_h2i m) with Some i => Ok i | None => Err KeyError end.
(** midi_dataset.py:37-41 *)
Definition get_node_hash (m : mapper) (i : Z) : res Z := match dict_get Z.eqb i (m_i2h m) with Some h => Ok h | None => Err KeyError end.

(** ** Split masks *)
(** midi_dataset.py:492-507 (and 639-654).  [indices] is np.random.permutation(num_nodes). *)
Definition upd_true (m : list bool) (i : nat) : list bool := firstn i m ++ (if Nat.ltb i (List.length m) then [true] else []) ++ skipn (S i) m.
(** midi_dataset.py:492-507, 639-654 *)
Definition set_true (n : nat) (idx : list nat) : list bool := fold_left upd_true idx (repeat false n).
(** midi_dataset.py:492-507, 639-654 *)
Record masks : Type := mkMasks { k_train : list bool; k_val : list bool; k_test : list bool }.
(** int(ratio * num_nodes), midi_dataset.py:493-494; the product is exact here *)
Definition part_size (r : Q) (n : nat) : nat := Z.to_nat (Qtrunc (r * inject_Z (Z.of_nat n))%Q).
(** midi_dataset.py:493-494 *)
Definition masks_of (n train_size val_size : nat) (indices : list nat) : masks :=
  mkMasks (set_true n (firstn train_size indices))
          (set_true n (skipn train_size (firstn (train_size + val_size) indices)))
          (set_true n (skipn (train_size + val_size) indices)).
(** midi_dataset.py:493-494 *)
Definition split_masks (train val : Q) (n : nat) (indices : list nat) : masks := masks_of n (part_size train n) (part_size val n) indices.

(** The numeric checks of the constructor, midi_dataset.py:170-184 *)
Definition check_args (train val : Q) (size buckets : option Z) : res unit :=
  if negb (Qle_bool 0 train && Qle_bool train 1) then Err ValueError
  else if negb (Qle_bool 0 val && Qle_bool val 1) then Err ValueError
  else if Qltb 1 (train + val) then Err ValueError
  else if match size with Some k => (k <? 1) || (128 <? k) | None => false end then Err ValueError
  else if match buckets with Some k => k <? 1 | None => false end then Err ValueError
  else Ok tt.

(** ** Conversion to PyG: from_midi_networkx, midi_graph_builder.py:221-335 *)
(** The value of a node's 'attr': a tensor (or ndarray), a float, or an int.
    [midi_graph_builder.py:276-316] *)
Inductive aval : Type := VTensor (t : tensor) | VFloat (q : Q) | VInt (z : Z).
(** midi_graph_builder.py:276-316 *)
Definition is_tensor (v : aval) : bool := match v with VTensor _ => true | _ => false end.
(** midi_graph_builder.py:276-316 *)
Definition is_float (v : aval) : bool := match v with VFloat _ => true | _ => false end.
(** midi_graph_builder.py:276-316 *)
Definition number (v : aval) : option Q := match v with VTensor _ => None | VFloat q => Some q | VInt z => Some (inject_Z z) end.
(** midi_graph_builder.py:276-316 *)
Fixpoint numbers (l : list aval) : option (list Q) :=
  match l with [] => Some [] | v :: r => match number v, numbers r with Some q, Some s => Some (q :: s) | _, _ => None end end.
(** Lines 280-302 and 309-316: what the collected list becomes and its column in x.  A list of
    tensors stays a list (285-286 precede 289), so .dim() at 312 raises; a list mixing numbers and tensors (of more than one element) makes
    torch.tensor raise ValueError or TypeError, which 300-302 swallow, so it stays a list too; a
    missing key raises KeyError at 311. [midi_graph_builder.py:280-316] *)
Definition node_column (attrs : list aval) : res (list Q) :=
  match attrs with
  | [] => Err KeyError
  | _ => if forallb is_tensor attrs then Err AttributeError
         else match numbers attrs with Some qs => Ok qs | None => Err AttributeError end
  end.
(** A node's 'attr' in the graphs of the builder, if it has the key. [midi_graph_builder.py:276-279] *)
Definition attr_of (a : nattr) : option aval := match a with NChord x _ _ => Some (VTensor x) | NMerged _ => None end.
(** Lines 259-273: all nodes must have the keys of the first; the keys tell chord nodes from merged
    ones here.  All edges carry 'weight' and no node does. [midi_graph_builder.py:259-273 and 221-335] *)
Definition same_keys (g : digraph) : bool :=
  match g_nodes g with
  | [] => true
  | (_, NChord _ _ _) :: r => forallb (fun kv => match snd kv with NChord _ _ _ => true | NMerged _ => false end) r
  | (_, NMerged _) :: r => forallb (fun kv => match snd kv with NChord _ _ _ => false | NMerged _ => true end) r
  end.
(** 259-273, midi_graph_builder.py:259-273 *)
Record converted : Type := mkV { v_x : list Q; v_edges : list (nat * nat); v_weights : list Z }.
(** 259-273, midi_graph_builder.py:259-273 *)
Definition convert (attrs : list aval) (edges : list (nat * nat)) (weights : list Z) : res converted :=
  bind (node_column attrs) (fun x => match weights with [] => Err KeyError | _ => Ok (mkV x edges weights) end).
(** 259-273, midi_graph_builder.py:259-273 *)
Definition from_midi_networkx (g : digraph) : res converted :=
  if negb (same_keys g) then Err ValueError
  else convert (fold_right (fun kv l => match attr_of (snd kv) with Some v => v :: l | None => l end) [] (g_nodes g)) (edge_index g) (edge_weights g).
(** Its outcome, as the argument [conv] of M_Graph.build. [midi_graph_builder.py:221-335] *)
Definition real_conv (g : digraph) : option exn := match from_midi_networkx g with Ok _ => None | Err x => Some x end.

(** ** Datasets *)
(** A processed graph. [midi_dataset.py:451-670] *)
Record item : Type := mkI { i_pyg : pyg; i_masks : option masks }.
(** What a dataset is made with: the conversion, reading a raw file, the random permutation of the
    k-th draw, the options and the hooks (which are taken not to raise). [midi_dataset.py:52-262] *)
Record setup : Type := mkSetup {
  s_env : env; s_conv : digraph -> option exn; s_read : string -> res (list seq); s_perm : nat -> nat -> list nat;
  s_paths : list string; s_config : config; s_train : Q; s_val : Q; s_split : bool;
  s_skip_label : bool; s_sanity : bool; s_filter : option (pyg -> bool); s_pre : option (item -> item) }.
(** midi_dataset.py:52-262 *)
Record dst : Type := mkD { d_b : builder; d_draws : nat; d_out : list item }.
(** midi_dataset.py:52-262 *)
Definition set_b (d : dst) (b : builder) : dst := mkD b (d_draws d) (d_out d).
(** The loop body, midi_dataset.py:485-511 and 633-659. *)
Definition num_nodes (p : pyg) : nat := List.length (g_nodes (p_graph p)).
(** midi_dataset.py:485-511, 633-659 *)
Definition take_graph (s : setup) (d : dst) (p : pyg) : dst :=
  if match s_filter s with Some f => negb (f p) | None => false end then d
  else
    let m := if s_split s then Some (split_masks (s_train s) (s_val s) (num_nodes p) (s_perm s (d_draws d) (num_nodes p))) else None in
    let i := mkI p m in
    mkD (d_b d) (if s_split s then S (d_draws d) else d_draws d) (d_out d ++ [match s_pre s with Some f => f i | None => i end]).
(** for midi_data in graphs(...): the generator is resumed until StopIteration; at most one step
    per stored graph and one more, which is the fuel. [midi_dataset.py:451-670] *)
Fixpoint for_graphs (fuel : nat) (s : setup) (d : dst) (st : gen) : res unit * dst :=
  match fuel with
  | O => (Ok tt, d)
  | S f => match graphs_next (d_b d) (s_skip_label s) (s_sanity s) st with
           | (Err StopIteration, b1, _) => (Ok tt, set_b d b1)
           | (Err x, b1, _) => (Err x, set_b d b1)
           | (Ok p, b1, st1) => for_graphs f s (take_graph s (set_b d b1) p) st1
           end
  end.
(** _mask_per_instrument, midi_dataset.py:451-513, on one file and on all *)
Definition instrument_file (s : setup) (d : dst) (path : string) : res unit * dst :=
  match s_read s path with
  | Err x => (Err x, d)
  | Ok seqs =>
    match build (s_env s) (s_conv s) (d_b d) seqs (s_config s) true with
    | (Err x, b1) => (Err x, set_b d b1)
    | (Ok _, b1) => for_graphs (2 + List.length (b_pyg b1)) s (set_b d b1) GStart
    end
  end.
(** midi_dataset.py:451-513 *)
Fixpoint per_instrument (s : setup) (d : dst) (paths : list string) : res unit * dst :=
  match paths with
  | [] => (Ok tt, d)
  | p :: r => match instrument_file s d p with
              | (Ok _, d1) | (Err KeyError, d1) => per_instrument s d1 r
              | (Err x, d1) => (Err x, d1)
              end
  end.
(** _mask_entire_graph, midi_dataset.py:610-670: only the first graph of each generator *)
Definition entire_file (s : setup) (d : dst) (path : string) : res unit * dst :=
  match s_read s path with
  | Err x => (Err x, d)
  | Ok seqs =>
    match build (s_env s) (s_conv s) (d_b d) seqs (s_config s) false with
    | (Err x, b1) => (Err x, set_b d b1)
    | (Ok _, b1) => match graphs_next b1 false false GStart with
                    | (Err x, b2, _) => (Err x, set_b d b2)
                    | (Ok p, b2, _) => (Ok tt, take_graph s (set_b d b2) p)
                    end
    end
  end.
(** midi_dataset.py:610-670 *)
Fixpoint entire (s : setup) (d : dst) (paths : list string) : res unit * dst :=
  match paths with
  | [] => (Ok tt, d)
  | p :: r => match entire_file s d p with
              | (Ok _, d1) | (Err KeyError, d1) | (Err FileNotFoundError, d1) => entire s d1 r
              | (Err x, d1) => (Err x, d1)
              end
  end.

(** A processed file: the graphs (collated) and the four dictionaries, 558-563
    [midi_dataset.py:558-563] *)
Record content : Type := mkF { f_graphs : list item; f_h2n : list (Z * list Z); f_n2h : list (list Z * Z); f_h2i : list (Z * Z); f_i2h : list (Z * Z) }.
(** midi_dataset.py:558-563 *)
Definition content_of (gs : list item) (b : builder) : content := mkF gs (b_h2n b) (b_n2h b) (b_h2i b) (b_i2h b).
(** midi_dataset.py:558-563 *)
Definition disk : Type := list (string * content).
(** processed_file_names, midi_dataset.py:376-387.  [fstr] is str() of a float. *)
Definition py_bool (b : bool) : string := if b then "True" else "False".
(** midi_dataset.py:376-387 *)
Definition py_opt (o : option Z) : string := match o with Some z => py_str z | None => "None" end.
(** midi_dataset.py:376-387 *)
Definition suffix (fstr : Q -> string) (vel : bool) (size : option Z) (tol : Q) : string :=
  ("vel_" ++ py_bool vel ++ "_" ++ "feature_size_" ++ py_opt size ++ "_" ++ "tolerance_" ++ fstr tol ++ ".pt")%string.
(** midi_dataset.py:376-387 *)
Definition name_instrument (fstr : Q -> string) (vel : bool) (size : option Z) (tol : Q) : string := ("per_instrument_" ++ suffix fstr vel size tol)%string.
(** midi_dataset.py:376-387 *)
Definition name_entire (fstr : Q -> string) (vel : bool) (size : option Z) (tol : Q) : string := ("data_" ++ suffix fstr vel size tol)%string.
(** midi_dataset.py:376-387 *)
Definition exists_file (k : disk) (n : string) : bool := match dict_get String.eqb n k with Some _ => true | None => false end.
(** processed_file_exists, midi_dataset.py:354-374 *)
Definition processed_file_exists (k : disk) (n1 n2 : string) : bool := exists_file k n1 && exists_file k n2.
(** load_processed, midi_dataset.py:291-327 *)
Definition load_processed (k : disk) (n1 n2 : string) (instrument : bool) : res content :=
  match dict_get String.eqb (if instrument then n1 else n2) k with Some c => Ok c | None => Err FileNotFoundError end.

(** process, midi_dataset.py:540-608.  Collating no graphs raises IndexError (566).  The second
    file is written with the graphs of the first (593).  [process] lists the disks that the call
    passes through, for crashes, the last being the final one; a file is written in one step
    (simplification). *)
Definition process (s : setup) (n1 n2 : string) (instrument : bool) (k : disk) : res content * list disk :=
  if processed_file_exists k n1 n2 then (load_processed k n1 n2 instrument, [k])
  else match per_instrument s (mkD b_new 0 []) (s_paths s) with
  | (Err x, _) => (Err x, [k])
  | (Ok _, d1) =>
    match d_out d1 with
    | [] => (Err IndexError, [k])
    | _ =>
      let k1 := dict_set String.eqb n1 (content_of (d_out d1) (d_b d1)) k in
      match entire s (mkD (d_b d1) (d_draws d1) []) (s_paths s) with
      | (Err x, _) => (Err x, [k; k1])
      | (Ok _, d2) =>
        let k2 := dict_set String.eqb n2 (content_of (d_out d1) (d_b d2)) k1 in
        (load_processed k2 n1 n2 instrument, [k; k1; k2])
      end
    end
  end.
(** Constructing a dataset: PyG's Dataset.__init__ calls process() unless all processed files are
    there, then midi_dataset.py:258-261 load. *)
Definition construct (s : setup) (n1 n2 : string) (instrument : bool) (k : disk) : res content * list disk :=
  match (if processed_file_exists k n1 n2 then (Ok (mkF [] [] [] [] []), [k]) else process s n1 n2 instrument k) with
  | (Err x, ks) => (Err x, ks)
  | (Ok _, ks) => (load_processed (last ks k) n1 n2 instrument, ks)
  end.
