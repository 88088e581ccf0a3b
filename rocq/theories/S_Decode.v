(** Specification for leading class numbers back to notes and features. *)
From Coq Require Import Permutation.
From Verif Require Import PyBase M_Note M_Seq M_Chord M_Graph S_Graph.
Open Scope Z_scope.

(** Sets of at most [size] pitches such that [P]; different ones have different hashes. *)
Definition small (size : Z) (P : Z -> Prop) (a : list Z) : Prop := NoDup a /\ Z.of_nat (List.length a) <= size /\ Forall P a.
Definition no_collisions (e : env) (size : Z) (P : Z -> Prop) : Prop := forall a b, small size P a -> small size P b -> e_shash e a = e_shash e b -> Permutation a b.
(** The notes a class number stands for: index_to_hash, then hash_to_notes. *)
Definition notes_of (b : builder) (i : Z) : option (list Z) :=
  match dict_get Z.eqb i (b_i2h b) with Some h => dict_get Z.eqb h (b_h2n b) | None => None end.
(** Every build in the history is made with arguments such that [K], nodes of at most [size] pitches and tracks of
    notes with pitches such that [P]. *)
Definition pitches_in (P : Z -> Prop) (s : seq) : Prop := forall n, In n (q_notes s) -> P (n_pitch n).
Definition builds_with (K : config -> Prop) (size : Z) (P : Z -> Prop) (o : b_op) : Prop :=
  match o with
  | OBuild _ l c _ => K c /\ c_size c <= size /\ Forall (pitches_in P) l
  | OSequence s c _ => K c /\ c_size c <= size /\ pitches_in P s
  | ONext _ _ _ => True
  end.
(** The class number [i] and the node [n] tell the same: the notes of the number are, in some order, those the feature
    of the node shows. *)
Definition decodes (K : config -> Prop) (b : builder) (i : Z) (n : Z * nattr) : Prop :=
  exists notes x l c group chunk, notes_of b i = Some notes /\ snd n = NChord x l (fst n) /\ K c /\ Permutation chunk notes /\ Z.of_nat (List.length chunk) <= c_size c /\ feature c group chunk x.
(** Two builders that answer every question about chords alike. *)
Definition same_maps (b b' : builder) : Prop :=
  (forall h, dict_get Z.eqb h (b_h2i b') = dict_get Z.eqb h (b_h2i b)) /\ (forall i, dict_get Z.eqb i (b_i2h b') = dict_get Z.eqb i (b_i2h b)) /\
  (forall h, dict_get Z.eqb h (b_h2n b') = dict_get Z.eqb h (b_h2n b)) /\ (forall s, dict_get same_set s (b_n2h b') = dict_get same_set s (b_n2h b)).
