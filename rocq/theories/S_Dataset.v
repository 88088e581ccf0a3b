(** Specifications for datasets (C52-C54, C110-C114). *)
From Coq Require Import QArith Permutation.
From Verif Require Import PyBase M_Note M_Events M_Seq S_Seq M_Chord M_Graph S_Graph M_Dataset.
Open Scope Z_scope.

(** [m] came about by adding the hashes [l], in order, directly or by merging other mappers. *)
Inductive made : mapper -> list Z -> Prop :=
| made_new : made m_new []
| made_add m l h : made m l -> made (add_node_hash m h) (l ++ [h])
| made_merge m l m' l' : made m l -> made m' l' -> made (merge_with m m') (l ++ l').

(** Node [i] is in a mask; how many are. *)
Definition marked (m : list bool) (i : nat) : Prop := nth_error m i = Some true.
Definition how_many (m : list bool) : nat := count_occ Bool.bool_dec m true.
Definition exactly_one (a b c : Prop) : Prop := (a /\ ~ b /\ ~ c) \/ (~ a /\ b /\ ~ c) \/ (~ a /\ ~ b /\ c).

(** The graph of the first qualifying track of a file, with its targets: the index of each node in
    the hash-to-index dictionary. *)
Definition first_graph (s : setup) (h2i : list (Z * Z)) (seqs : list seq) (p : pyg) : Prop :=
  exists t ts is, selects (track_ok (s_env s) (s_config s)) seqs (t :: ts) /\ graph_of_track (s_env s) (s_config s) t (p_graph p) /\
    Forall2 (fun h i => dict_get Z.eqb h h2i = Some i) (nodes_of (p_graph p)) is /\
    p_y p = Some is /\ p_label p = if s_skip_label s then None else Some is.
(** Files that cannot be read because of a KeyError and files without a qualifying track give
    nothing; every other file gives one graph. *)
Inductive file_graphs (s : setup) (h2i : list (Z * Z)) : list string -> list pyg -> Prop :=
| fg_nil : file_graphs s h2i [] []
| fg_error path r ps : s_read s path = Err KeyError -> file_graphs s h2i r ps -> file_graphs s h2i (path :: r) ps
| fg_none path r seqs ps : s_read s path = Ok seqs -> selects (track_ok (s_env s) (s_config s)) seqs [] -> file_graphs s h2i r ps -> file_graphs s h2i (path :: r) ps
| fg_one path r seqs p ps : s_read s path = Ok seqs -> first_graph s h2i seqs p -> file_graphs s h2i r ps -> file_graphs s h2i (path :: r) (p :: ps).
(** What is stored for a graph: masks from some draw, then the pre-transform. *)
Definition stored_as (s : setup) (p : pyg) (i : item) : Prop :=
  exists m k, m = (if s_split s then Some (split_masks (s_train s) (s_val s) (List.length (nodes_of (p_graph p))) (s_perm s k (List.length (nodes_of (p_graph p))))) else None) /\
    i = match s_pre s with Some f => f (mkI p m) | None => mkI p m end.
Definition passes (s : setup) (p : pyg) : Prop := match s_filter s with Some f => f p = true | None => True end.
