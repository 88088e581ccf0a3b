(** Specification for graph transforms, one-hot encodings and dataset splits. *)
From Coq Require Import Sorted QArith Qround.
From Verif Require Import PyBase M_Load M_Transforms S_Seq.
Open Scope Z_scope.

(** The number of edges that leave node [i]. *)
Definition out_degree (l : list (Z * Z)) (i : nat) : nat := count_occ Z.eq_dec (map fst l) (Z.of_nat i).
(** Edges between nodes 0 .. n-1. *)
Definition edges_in (n : nat) (l : list (Z * Z)) : Prop := forall a b, In (a, b) l -> 0 <= a < Z.of_nat n /\ 0 <= b < Z.of_nat n.
(** A graph with [n] nodes, edges [l] with attributes [a], and targets and masks for every node. *)
Definition well_formed (n : nat) (l : list (Z * Z)) (d : data) : Prop :=
  num_nodes d = n /\ List.length (d_x d) = n /\ d_ei d = EPairs l /\ edges_in n l /\
  (exists y, d_y d = Some y /\ List.length y = n) /\ (exists m, d_train d = Some m /\ List.length m = n) /\
  (exists m, d_val d = Some m /\ List.length m = n) /\ (exists m, d_test d = Some m /\ List.length m = n).
(** [l'] holds the entries of [l] at the positions [ks]. *)
Definition picked {A} (ks : list nat) (l l' : list A) : Prop := map Some l' = map (nth_error l) ks.
Definition opicked {A} (ks : list nat) (a a' : option (list A)) : Prop :=
  exists l l', a = Some l /\ a' = Some l' /\ picked ks l l'.
(** The ascending list of the numbers below [n] that satisfy [p]. *)
Definition numbers (n : nat) (p : nat -> Prop) (ks : list nat) : Prop :=
  StronglySorted lt ks /\ forall i, In i ks <-> (i < n)%nat /\ p i.
(** Both ends of an edge are among [ks]. *)
Definition among (ks : list nat) (e : Z * Z) : Prop := exists i j, e = (Z.of_nat i, Z.of_nat j) /\ In i ks /\ In j ks.
(** Everything but the features, edges, targets, masks and the number of nodes. *)
Definition same_rest (d d' : data) : Prop :=
  d_pos d' = d_pos d /\ d_neg d' = d_neg d /\ d_posi d' = d_posi d /\ d_negi d' = d_negi d /\ d_hash d' = d_hash d /\ d_directed d' = d_directed d.
(** [i] designates entry [k] of [n], negative numbers counting from the end. *)
Definition designates (n : nat) (i : Z) (k : nat) : Prop := (k < n)%nat /\ (i = Z.of_nat k \/ i = Z.of_nat k - Z.of_nat n).

(** The column of a time. *)
Definition col (fs t : Q) : Z := Qfloor (t * fs).
(** The last event in column [t] for pitch [p] is the start of a note. *)
Definition rings (fs : Q) (notes : list roll_note) (p t : Z) : Prop :=
  exists l1 n l2, notes = l1 ++ n :: l2 /\ rn_pitch n = p /\ col fs (rn_start n) = t /\ col fs (rn_end n) <> t /\
    forall m, In m l2 -> rn_pitch m = p -> col fs (rn_end m) <> t.
Definition good_note (n : roll_note) : Prop := 0 <= rn_pitch n < 128 /\ (0 <= rn_start n)%Q /\ (rn_start n <= rn_end n)%Q.
Definition good_inst (i : roll_inst) : Prop := Forall good_note (ri_notes i) /\ (0 <= end_time i)%Q.
(** The share [p] of [n], rounded down. *)
Definition drops (p : Q) (n : nat) : nat := Z.to_nat (Qfloor (p * inject_Z (Z.of_nat n))).
