(** Specification: the convolution by its formula, entry by entry. *)
From Coq Require Import Reals.
From Verif Require Import PyBase M_Network S_Network.
Open Scope R_scope.

(** A matrix with [r] rows and [c] columns. *)
Definition matrix (r c : nat) (m : list vec) : Prop := List.length m = r /\ Forall (fun v => List.length v = c) m.
(** Its entries. *)
Definition entry (m : list vec) (i d : nat) : R := nth d (nth i m []) 0.
Definition total (l : list R) : R := fold_right Rplus 0 l.
(** (P X)(i, d): the sum of the entries of the predecessors. *)
Definition spread (edges : list (nat * nat)) (x : list vec) (i d : nat) : R := total (map (fun j => entry x j d) (predecessors edges i)).
(** (Y ((1 - beta) I + beta W))(i, d) for a matrix Y of [c] columns, given by its entries. *)
Definition mixed (c : nat) (beta : R) (y : nat -> nat -> R) (w : list vec) (i d : nat) : R :=
  (1 - beta) * y i d + beta * total (map (fun e => y i e * entry w e d) (seq 0 c)).

(** A linear layer from [c] to [d] channels, and its value for features given by their entries. *)
Definition linear_of (c d : nat) (l : linear) : Prop := matrix d c (l_weight l) /\ List.length (l_bias l) = d.
Definition line (c : nat) (l : linear) (x : nat -> nat -> R) (i d : nat) : R := total (map (fun e => x i e * entry (l_weight l) d e) (seq 0 c)) + nth d (l_bias l) 0.
(** The convolution of features given by their entries. *)
Definition convolved (c : nat) (alpha : R) (k : conv) (edges : list (nat * nat)) (x x0 : nat -> nat -> R) : nat -> nat -> R :=
  let p i d := (1 - alpha) * total (map (fun j => x j d) (predecessors edges i)) in
  let q i d := alpha * x0 i d in
  match c_w2 k with
  | None => mixed c (c_beta k) (fun i d => p i d + q i d) (c_w1 k)
  | Some w2 => fun i d => mixed c (c_beta k) p (c_w1 k) i d + mixed c (c_beta k) q w2 i d
  end.
(** The network: a linear layer cut at 0, then for each convolution the sum of its value and of what it was
    given, cut at 0, then a linear layer. *)
Definition hidden (n : network) (edges : list (nat * nat)) (x0 : nat -> nat -> R) : nat -> nat -> R :=
  fold_left (fun x k => fun i d => Rmax 0 (convolved (w_hidden n) (w_alpha n) k edges x x0 i d + x i d)) (w_convs n) x0.
Definition scores (n : network) (f : nat) (feats : list vec) (edges : list (nat * nat)) : nat -> nat -> R :=
  line (w_hidden n) (w_out n) (hidden n edges (fun i d => Rmax 0 (line f (w_in n) (entry feats) i d))).
(** The shapes fit: [f] features, [o] classes. *)
Definition fits (n : network) (f o : nat) : Prop :=
  linear_of f (w_hidden n) (w_in n) /\ linear_of (w_hidden n) o (w_out n) /\
  Forall (fun k => matrix (w_hidden n) (w_hidden n) (c_w1 k) /\ forall w, c_w2 k = Some w -> matrix (w_hidden n) (w_hidden n) w) (w_convs n).
