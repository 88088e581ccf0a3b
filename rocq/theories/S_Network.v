(** Specification for node classification by message passing. *)
From Coq Require Import Permutation.
From Verif Require Import PyBase M_Network.

(** A graph: the features of the nodes and the edges; its edges join nodes that exist. *)
Definition valid (feats : list vec) (edges : list (nat * nat)) : Prop :=
  Forall (fun e => (fst e < List.length feats)%nat /\ (snd e < List.length feats)%nat) edges.
(** The nodes from which an edge leads to [i], one for each edge. *)
Definition predecessors (edges : list (nat * nat)) (i : nat) : list nat :=
  flat_map (fun e => if Nat.eq_dec (snd e) i then [fst e] else []) edges.
(** Nodes of two graphs that look the same from a distance of at most [k]: same features, and their
    predecessors can be paired so that they look the same from a distance of at most [k - 1]. *)
Fixpoint alike (k : nat) (feats : list vec) (edges : list (nat * nat)) (feats' : list vec) (edges' : list (nat * nat)) (i i' : nat) : Prop :=
  nth_error feats i = nth_error feats' i' /\
  match k with
  | O => True
  | S k => exists l, Permutation l (predecessors edges' i') /\ Forall2 (alike k feats edges feats' edges') (predecessors edges i) l
  end.
(** A renumbering of [n] nodes. *)
Definition renumbers (n : nat) (f : nat -> nat) : Prop :=
  (forall i, (i < n)%nat -> (f i < n)%nat) /\ (forall i j, (i < n)%nat -> (j < n)%nat -> f i = f j -> i = j).
(** A path of at most so many edges. *)
Inductive reaches (edges : list (nat * nat)) : nat -> nat -> nat -> Prop :=
| reaches_here k i : reaches edges k i i
| reaches_step k h j i : In (h, j) edges -> reaches edges k j i -> reaches edges (S k) h i.
