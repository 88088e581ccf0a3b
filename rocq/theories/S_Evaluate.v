(** Specification for what the example scripts report as accuracy. *)
From Verif Require Import PyBase M_Evaluate.
Open Scope Z_scope.

(** Of the nodes, n are test nodes, and r of these are predicted rightly. *)
Inductive hits : list tnode -> nat -> nat -> Prop :=
| hits_nil : hits [] 0 0
| hits_skip : forall x l r n, t_test x = false -> hits l r n -> hits (x :: l) r n
| hits_right : forall x l r n, t_test x = true -> t_pred x = t_label x -> hits l r n -> hits (x :: l) (Datatypes.S r) (Datatypes.S n)
| hits_wrong : forall x l r n, t_test x = true -> t_pred x <> t_label x -> hits l r n -> hits (x :: l) r (Datatypes.S n).
Definition of_nat (n : nat) : Q := inject_Z (Z.of_nat n).
(** Sums over the batches, each with its right and its test nodes. *)
Fixpoint sum_tests (l : list (nat * nat)) : nat := match l with [] => 0%nat | (_, n) :: l' => (n + sum_tests l')%nat end.
Fixpoint sum_accuracies (l : list (nat * nat)) : Q := match l with [] => 0%Q | (r, n) :: l' => (of_nat r / of_nat n + sum_accuracies l')%Q end.
(** c of the numbers have the property. *)
Inductive such {A} (p : A -> Prop) : list A -> nat -> Prop :=
| such_nil : such p [] 0
| such_yes : forall x l c, p x -> such p l c -> such p (x :: l) (Datatypes.S c)
| such_no : forall x l c, ~ p x -> such p l c -> such p (x :: l) c.
(** A batch with a mask matrix without columns. *)
Definition no_columns (b : loaded) : Prop := exists m l p, b = Graph (Columns []) m l p.
