(** Specification for the evaluation of a trained network. *)
From Verif Require Import PyBase M_Train.
Open Scope Z_scope.

(** The three sets of nodes of a split. *)
Inductive part : Type := Training | Validation | Testing.
(** A node belongs to a part of split [i]. *)
Definition belongs (p : part) (i : nat) (x : node) : bool :=
  nth i (match p with Training => n_train x | Validation => n_val x | Testing => n_test x end) false.
(** Members of a part, and those whose class was predicted right. *)
Definition members (p : part) (i : nat) (b : batch) : list node := filter (belongs p i) (b_nodes b).
Definition right_ones (p : part) (i : nat) (b : batch) : list node := filter (fun x => n_pred x =? n_label x) (members p i b).
Definition size {A} (l : list A) : Q := inject_Z (Z.of_nat (List.length l)).
(** The share of a part predicted right in one split. *)
Definition share (p : part) (b : batch) (i : nat) : Q := (size (right_ones p i b) / size (members p i b))%Q.
Definition total (l : list Q) : Q := fold_right Qplus 0%Q l.
Definition mean (l : list Q) : Q := (total l / size l)%Q.
(** The mean share over the splits of a batch, and over the batches of an epoch. *)
Definition batch_share (p : part) (b : batch) : Q := mean (map (share p b) (seq 0 (b_splits b))).
Definition epoch_share (p : part) (e : list batch) : Q := mean (map (batch_share p) e).
(** Some mask of some split is empty. *)
Definition has_empty_mask (b : batch) : Prop := exists p i, (i < b_splits b)%nat /\ members p i b = [].
(** [v] is the greatest of the values and 0. *)
Definition greatest (v : Q) (l : list Q) : Prop := (v == 0 \/ Exists (Qeq v) l)%Q /\ (0 <= v)%Q /\ Forall (fun x => (x <= v)%Q) l.
