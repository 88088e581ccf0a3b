(** Specification of connect_instruments. *)
From Coq Require Import QArith.
From Verif Require Import PyBase M_SortedDict M_Note M_Events M_Seq M_Chord M_Seqs M_Connect.
Open Scope Z_scope.

(** The weight of the edge from [a] to [b], if there is one. *)
Definition weight_of (g : wgraph) (a b : Z) : option Q :=
  match dict_get Z.eqb a g with Some x => dict_get Z.eqb b (v_adj x) | None => None end.
Definition edge (g : wgraph) (a b : Z) : Prop := weight_of g a b <> None.
Definition is_node (g : wgraph) (a : Z) : Prop := In a (map fst g).
(** Every node has a label and a start time. *)
Definition attributed (g : wgraph) : Prop := forall a x, In (a, x) g -> v_label x <> None /\ v_start x <> None.
(** A graph object: no node occurs twice, edges lead to nodes, and a Graph holds every edge with both ends. *)
Definition graph_ok (directed : bool) (g : wgraph) : Prop :=
  NoDup (map fst g) /\ (forall a b, edge g a b -> is_node g a /\ is_node g b) /\
  (directed = false -> forall a b, weight_of g a b = weight_of g b a).
(** The nodes with their attributes. *)
Definition node_data (g : wgraph) : list (Z * (option glabel * option Q)) := map (fun nx => (fst nx, (v_label (snd nx), v_start (snd nx)))) g.
(** [a] is the last node labelled with pitch [p] that starts at [t]. *)
Definition called (x : vertex) (p : Z) (t : Q) : Prop := v_label x = Some (GPitch p) /\ exists t', v_start x = Some t' /\ (t' == t)%Q.
Definition node_at (g : wgraph) (p : Z) (t : Q) (a : Z) : Prop :=
  exists g1 x g2, g = g1 ++ (a, x) :: g2 /\ called x p t /\ (forall b y, In (b, y) g2 -> ~ called y p t).
(** midi_seqs[u] is the track [q], which is there already. *)
Definition has_track (s : mseqs) (u : Z) (q : seq) : Prop :=
  0 <= u < 128 /\ exists j, od_get Z Z Z.eqb (m_idx s) u = Some j /\ od_get Z seq Z.eqb (od (m_tracks s)) j = Some q.
(** The two notes overlap in time. *)
Definition notes_overlap (a b : note) : Prop :=
  (n_start a <= n_start b /\ n_start b < n_end a)%Q \/ (n_start a < n_end b /\ n_end b <= n_end a)%Q \/ (n_start b <= n_start a /\ n_end a <= n_end b)%Q.
(** A note of track [q] that starts with node [u]. *)
Definition starts_with (g : wgraph) (u : Z) (q : seq) (n : note) : Prop :=
  In n (q_notes q) /\ exists x t, In (u, x) g /\ v_start x = Some t /\ (n_start n == t)%Q.
(** The tracks of the nodes [u] and [v] have different instruments, a note of [u]'s that starts with [u] and one
    of [v]'s that starts with [v] overlap, and [a] and [b] are the nodes for the pitches and starts of these. *)
Definition joined_by (g : wgraph) (s : mseqs) (u v a b : Z) : Prop :=
  exists qu qv un vn, has_track s u qu /\ has_track s v qv /\ q_instr qu <> q_instr qv /\
    starts_with g u qu un /\ starts_with g v qv vn /\ notes_overlap un vn /\
    node_at g (n_pitch un) (n_start un) a /\ node_at g (n_pitch vn) (n_start vn) b.
(** [u] comes before [v] among the nodes. *)
Definition comes_before (g : wgraph) (u v : Z) : Prop := exists l1 l2, map fst g = l1 ++ u :: l2 /\ In v l2.
