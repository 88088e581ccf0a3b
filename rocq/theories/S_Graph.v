(** Specification for building graphs from note sequences. *)
From Coq Require Import Sorted Permutation Relations QArith Qabs.
From Verif Require Import PyBase M_Note M_Events M_Seq S_Seq M_Chord M_Graph.
Open Scope Z_scope.

(** ** Chords *)
(** [m] is the integer nearest to [x], the even one when two are. *)
Definition nearest_even (x : Q) (m : Z) : Prop :=
  (Qabs (x - inject_Z m) <= 1 # 2)%Q /\ ((Qabs (x - inject_Z m) == 1 # 2)%Q -> Z.Even m).
(** [a] is the time [s] moved to the nearest multiple of [tol] and rounded to hundredths; [s]
    itself for tolerance 0. *)
Definition snapped (tol s a : Q) : Prop :=
  ((tol == 0)%Q /\ a = s) \/
  (~ (tol == 0)%Q /\ exists m k, nearest_even (s / tol) m /\ nearest_even (inject_Z m * tol * 100) k /\ (a == inject_Z k / 100)%Q).
(** Notes that take part in chords. *)
Definition sounding (n : note) : Prop := n_drum n = false /\ n_velocity n <> 0.
(** Assumptions about CPython: equal numbers have equal hashes; iterating over a frozenset yields
    its elements once each; equal frozensets have equal hashes. *)
Definition env_ok (e : env) : Prop :=
  (forall a b, (a == b)%Q -> e_thash e a = e_thash e b) /\
  (forall l, NoDup l -> Permutation (e_order e l) l) /\
  (forall a b, Permutation a b -> e_shash e a = e_shash e b).

(** [key] gives each note the hash of its snapped start. *)
Definition time_key (e : env) (tol : Q) (key : note -> Z) : Prop :=
  forall n, exists a, snapped tol (n_start n) a /\ key n = e_thash e a.
(** [gs] are the groups of sounding notes with the same key, each in the order of the sequence, by
    ascending key; with [filter_single] only those of more than one note. *)
Definition groups_of (key : note -> Z) (filter_single : bool) (notes : list note) (gs : list (list note)) : Prop :=
  exists ks, StronglySorted Z.lt ks /\
    Forall2 (fun k g => selects (fun n => sounding n /\ key n = k) notes g /\ g <> [] /\ (filter_single = true -> (2 <= List.length g)%nat)) ks gs /\
    (forall n, In n notes -> sounding n -> filter_single = false -> In (key n) ks) /\
    (forall k g, selects (fun n => sounding n /\ key n = k) notes g -> (2 <= List.length g)%nat -> In k ks).
(** [cs] splits the distinct pitches of the group [g] into full chunks of [size] and a last one. *)
Definition splits (size : Z) (g : list note) (cs : list (list Z)) : Prop :=
  NoDup (List.concat cs) /\ (forall p, In p (List.concat cs) <-> exists n, In n g /\ n_pitch n = p) /\
  Forall (fun c => c <> [] /\ Z.of_nat (List.length c) <= size) cs /\
  (forall c1 c cs2, cs = c1 ++ c :: cs2 -> cs2 <> [] -> Z.of_nat (List.length c) = size).
(** The chords of a sequence in the order they are visited. *)
Definition chords_of (e : env) (s : seq) (c : config) (ws : list (list Z)) : Prop :=
  exists key gs css, time_key e (compute_tolerance s 95) key /\ groups_of key (c_filter c) (q_notes s) gs /\
    Forall2 (splits (c_size c)) gs css /\ ws = List.concat css.

(** ** Graphs *)
Definition weight (g : digraph) (a b : Z) : Z := match edge_weight g a b with Some w => w | None => 0 end.
Definition edge (g : digraph) (a b : Z) : Prop := exists w, edge_weight g a b = Some w.
Definition nodes_of (g : digraph) : list Z := map fst (g_nodes g).
(** Steps from one element of a walk to the next, and how often a step occurs. *)
Definition steps (walk : list Z) : list (Z * Z) := combine walk (tl walk).
Definition pair_dec : forall a b : Z * Z, {a = b} + {a <> b}.
Proof. decide equality; apply Z.eq_dec. Defined.
Definition times (a b : Z) (walk : list Z) : Z := Z.of_nat (count_occ pair_dec (steps walk) (a, b)).
(** Among the steps between [a] and [b] the first one goes from [a] to [b]. *)
Definition first_step (a b : Z) (walk : list Z) : Prop :=
  exists l1 l2, steps walk = l1 ++ (a, b) :: l2 /\ ~ In (a, b) l1 /\ ~ In (b, a) l1.
(** The elements of a list in order of first occurrence. *)
Definition first_seen (l : list Z) : list Z := rev (nodup Z.eq_dec (rev l)).

(** A graph of chord hashes: distinct nodes and edges, edges between nodes with positive weights,
    and no pair of different nodes joined in both directions. *)
Definition graph_ok (g : digraph) : Prop :=
  NoDup (nodes_of g) /\ NoDup (map fst (g_edges g)) /\
  (forall a b w, In ((a, b), w) (g_edges g) -> In a (nodes_of g) /\ In b (nodes_of g) /\ 1 <= w) /\
  (forall a b, a <> b -> edge g a b -> ~ edge g b a).

(** [g'] is the graph of the walk: the nodes are its elements, the weight between two nodes counts
    the steps between them in both directions, held by the edge in the direction of the first; a
    self loop counts the repetitions, that of the first node one more. *)
Definition graph_of (walk : list Z) (g : digraph) : Prop :=
  nodes_of g = first_seen walk /\
  (forall a b, a <> b -> weight g a b + weight g b a = times a b walk + times b a walk) /\
  (forall a b, a <> b -> (edge g a b <-> first_step a b walk)) /\
  (forall a, weight g a a = times a a walk + (if match walk with f :: _ => f =? a | [] => false end then 1 else 0)).
(** [g'] is [g] with the walk, which starts at the node of [g] added last, put into it. *)
Definition extends (g : digraph) (walk : list Z) (g' : digraph) : Prop :=
  nodes_of g' = first_seen (nodes_of g ++ walk) /\
  (forall a b, a <> b -> weight g' a b + weight g' b a = weight g a b + weight g b a + times a b walk + times b a walk) /\
  (forall a b, a <> b -> (edge g' a b <-> edge g a b \/ (~ edge g b a /\ first_step a b walk))) /\
  (forall a, weight g' a a = weight g a a + times a a walk).
(** A row of [size] numbers holding [l] and then zeros; a row of zeros with a one at [p]. *)
Definition row (size : Z) (l r : list Z) : Prop := Z.of_nat (List.length r) = size /\ forall i, nth i r 0 = nth i l 0.
Definition hot (classes p : Z) (r : list Z) : Prop := Z.of_nat (List.length r) = classes /\ forall i, nth i r 0 = if Z.of_nat i =? p then 1 else 0.
(** The greatest velocity with which the group plays a pitch. *)
Definition loudest (notes : list note) (p v : Z) : Prop :=
  (exists n, In n notes /\ n_pitch n = p /\ n_velocity n = v) /\ forall n, In n notes -> n_pitch n = p -> n_velocity n <= v.
(** The feature of a chunk of a group of notes: its pitches, padded or one-hot, with the rescaled
    velocities as second row or last column if requested. *)
Definition feature (c : config) (notes : list note) (chunk : list Z) (x : tensor) : Prop :=
  exists tops, Forall2 (loudest notes) chunk tops /\
  match c_type c, c_velocity c with
  | TensorAttr, false => exists r, x = Vec r /\ row (c_size c) chunk r
  | TensorAttr, true => exists vs r1 r2, rescale tops = Ok vs /\ x = Mat [r1; r2] /\ row (c_size c) chunk r1 /\ row (c_size c) vs r2
  | OneHotAttr, false => exists rows, x = Mat rows /\ Forall2 (hot 127) chunk rows
  | OneHotAttr, true => exists vs rows, rescale tops = Ok vs /\ Forall2 (hot 127) chunk rows /\ x = Mat (map (fun rv => fst rv ++ [snd rv]) (combine rows vs))
  end.
(** The feature, label and hash stored in a node come from a chunk, with that hash, of one of the
    groups; the label is the hash or the pitches of the group. *)
Definition node_from (e : env) (c : config) (gs : list (list note)) (n : Z * nattr) : Prop :=
  exists notes cs chunk x l, In notes gs /\ splits (c_size c) notes cs /\ In chunk cs /\ fst n = e_shash e chunk /\ feature c notes chunk x /\
    snd n = NChord x l (fst n) /\
    (l = LHash (fst n) \/ exists names, l = LNames names /\ NoDup names /\ (forall p, In p names <-> exists m, In m notes /\ n_pitch m = p)).
Definition velocities_of (e : env) (c : config) (notes : list note) (chunk : list Z) : option (list Z) :=
  if c_velocity c then match rescale (map (top_velocity notes) chunk) with Ok v => Some v | Err _ => None end else None.
(** [g'] is [g] with [nodes] replaced by the node [new], which has the edges to the remaining
    nodes that left them, each with the weight found last, and no incoming edges. *)
Definition merged (g : digraph) (nodes : list Z) (new : Z) (g' : digraph) : Prop :=
  (exists rest, selects (fun h => ~ In h nodes) (nodes_of g) rest /\ nodes_of g' = rest ++ [new]) /\
  (forall a b, a <> new -> edge_weight g' a b = Some (weight g a b) /\ edge g a b /\ ~ In a nodes /\ ~ In b nodes \/
                           edge_weight g' a b = None /\ ~ (edge g a b /\ ~ In a nodes /\ ~ In b nodes)) /\
  (forall b w, edge_weight g' new b = Some w <-> ~ In b nodes /\ exists l1 n l2, nodes = l1 ++ n :: l2 /\ edge_weight g n b = Some w /\ forall m, In m l2 -> ~ edge g m b).

(** Ignoring directions. *)
Definition linked (g : digraph) (a b : Z) : Prop := edge g a b \/ edge g b a.
Definition connected (g : digraph) (a b : Z) : Prop := clos_refl_trans Z (linked g) a b.

(** ** Builders *)
(** The hash-to-index and index-to-hash maps number the hashes [hs] from 1. *)
Definition numbered (b : builder) (hs : list Z) : Prop :=
  NoDup hs /\ map fst (b_h2n b) = hs /\
  (forall h i, dict_get Z.eqb h (b_h2i b) = Some i <-> 1 <= i /\ nth_error hs (Z.to_nat (i - 1)) = Some h) /\
  (forall h i, dict_get Z.eqb i (b_i2h b) = Some h <-> 1 <= i /\ nth_error hs (Z.to_nat (i - 1)) = Some h).
(** Histories of a builder: any calls, successful or not. *)
Inductive b_op : Type :=
| OBuild (conv : digraph -> option exn) (l : list seq) (c : config) (per_instrument : bool)
| OSequence (s : seq) (c : config) (g : option digraph)
| ONext (skip_label sanity : bool) (s : gen).
Definition b_do (e : env) (b : builder) (o : b_op) : builder :=
  match o with
  | OBuild conv l c per => snd (build e conv b l c per)
  | OSequence s c g => snd (build_sequence e b s c g)
  | ONext skip sanity s => snd (fst (graphs_next b skip sanity s))
  end.
Definition b_run (e : env) (b : builder) (ops : list b_op) : builder := fold_left (b_do e) ops b.

(** Tracks that yield a graph. *)
Definition track_ok (e : env) (c : config) (s : seq) : Prop :=
  i_drum (q_instr s) = false /\ List.length (q_notes s) <> 1%nat /\ exists ws, ws <> [] /\ chords_of e s c ws.
Definition graph_of_track (e : env) (c : config) (s : seq) (g : digraph) : Prop :=
  exists ws, ws <> [] /\ chords_of e s c ws /\ graph_of (map (e_shash e) ws) g.
(** One graph for several tracks: each further track is put into it starting from the node added
    last. *)
Inductive graph_of_tracks (e : env) (c : config) : list seq -> digraph -> Prop :=
| gt_one s g : graph_of_track e c s g -> graph_of_tracks e c [s] g
| gt_more l s g ns p ws g' : graph_of_tracks e c l g -> nodes_of g = ns ++ [p] -> ws <> [] -> chords_of e s c ws ->
    extends g (p :: map (e_shash e) ws) g' -> graph_of_tracks e c (l ++ [s]) g'.
(** Arguments that the builder accepts, and pitches that features can hold. *)
Definition valid_config (c : config) : Prop := 1 <= c_size c <= 128 /\ 1 <= c_buckets c /\ (0 <= c_tolerance c)%Q /\ (c_tolerance c <= 1)%Q.
Definition good_pitch (c : config) (p : Z) : Prop := match c_type c with OneHotAttr => 0 <= p < 127 | TensorAttr => c_velocity c = true -> 0 <= p end.
