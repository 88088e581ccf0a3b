(** Model of minimum_example_node_classification.py: NeuralGraphComposer.forward in evaluation mode (dropout is
    the identity) and of the convolution it stacks (NgcGCN2Conv.forward, the same as torch_geometric's GCN2Conv,
    with normalize=False and no edge weights).  Numbers are exact reals; a matrix is the list of its rows. *)
From Coq Require Import Reals.
From Verif Require Import PyBase.
Open Scope R_scope.

(** A row of features. [minimum_example_node_classification.py:140-145] *)
Definition vec : Type := list R.
(** Elementwise sum. [minimum_example_node_classification.py:173] *)
Fixpoint vadd (a b : vec) : vec := match a, b with x :: a', y :: b' => (x + y) :: vadd a' b' | _, _ => [] end.
(** A row times a number. [minimum_example_node_classification.py:169-170] *)
Definition vscale (c : R) (a : vec) : vec := map (Rmult c) a.
(** The sum of rows of [c] entries. [minimum_example_node_classification.py:101-102, 167: aggr='add'] *)
Definition vsum (c : nat) (l : list vec) : vec := fold_right vadd (repeat 0 c) l.
(** A row times a matrix with rows of [c] entries. [minimum_example_node_classification.py:174-180] *)
Fixpoint vmat (c : nat) (a : vec) (w : list vec) : vec :=
  match a, w with x :: a', r :: w' => vadd (vscale x r) (vmat c a' w') | _, _ => repeat 0 c end.
(** torch.addmm(a, a, w, beta=1-beta, alpha=beta). [minimum_example_node_classification.py:174-180] *)
Definition addmm (c : nat) (beta : R) (a : vec) (w : list vec) : vec := vadd (vscale (1 - beta) a) (vscale beta (vmat c a w)).
(** relu. [minimum_example_node_classification.py:238, 244] *)
Definition relu (a : vec) : vec := map (Rmax 0) a.
(** torch.nn.Linear: weight of shape (out, in), bias. [minimum_example_node_classification.py:220-221] *)
Record linear : Type := { l_weight : list vec; l_bias : vec }.
(** The inner product. [minimum_example_node_classification.py:238, 247] *)
Fixpoint inner (a b : vec) : R := match a, b with x :: a', y :: b' => x * y + inner a' b' | _, _ => 0 end.
(** minimum_example_node_classification.py:238, 247 *)
Definition apply_linear (l : linear) (a : vec) : vec := vadd (map (inner a) (l_weight l)) (l_bias l).
(** A convolution: beta (1, or log(theta / layer + 1)), weight1, and weight2 unless the weights are shared.
    [minimum_example_node_classification.py:112-131] *)
Record conv : Type := { c_beta : R; c_w1 : list vec; c_w2 : option (list vec) }.
(** The network: alpha, the number of hidden channels, the two linear layers and the convolutions.
    [minimum_example_node_classification.py:198-228] *)
Record network : Type := { w_alpha : R; w_hidden : nat; w_in : linear; w_out : linear; w_convs : list conv }.
(** The nodes with an edge to [i], one for each edge. [minimum_example_node_classification.py:167] *)
Definition sources (edges : list (nat * nat)) (i : nat) : list nat := map fst (filter (fun e => Nat.eqb (snd e) i) edges).
(** propagate: for each node the sum over its incoming edges. [minimum_example_node_classification.py:167, 184-185] *)
Definition propagate (c : nat) (edges : list (nat * nat)) (x : list vec) : list vec :=
  map (fun i => vsum c (map (fun j => nth j x []) (sources edges i))) (seq 0 (List.length x)).
(** What the convolution does with a row after propagation, and the same row of x_0.
    [minimum_example_node_classification.py:169-182] *)
Definition conv_row (c : nat) (alpha : R) (k : conv) (p x0 : vec) : vec :=
  let x := vscale (1 - alpha) p in
  let y := vscale alpha x0 in
  match c_w2 k with
  | None => addmm c (c_beta k) (vadd x y) (c_w1 k)
  | Some w2 => vadd (addmm c (c_beta k) x (c_w1 k)) (addmm c (c_beta k) y w2)
  end.
(** Two tensors row by row. [minimum_example_node_classification.py:173, 243] *)
Fixpoint rows2 (f : vec -> vec -> vec) (a b : list vec) : list vec :=
  match a, b with x :: a', y :: b' => f x y :: rows2 f a' b' | _, _ => [] end.
(** minimum_example_node_classification.py:140-182 NgcGCN2Conv.forward *)
Definition conv_forward (c : nat) (alpha : R) (k : conv) (edges : list (nat * nat)) (x x0 : list vec) : list vec :=
  rows2 (conv_row c alpha k) (propagate c edges x) x0.
(** One round of the loop: h = conv(x, x_0); x = relu(h + x). [minimum_example_node_classification.py:240-244] *)
Definition layer (n : network) (edges : list (nat * nat)) (x0 : list vec) (x : list vec) (k : conv) : list vec :=
  map relu (rows2 vadd (conv_forward (w_hidden n) (w_alpha n) k edges x x0) x).
(** minimum_example_node_classification.py:230-249 forward, when model.eval() was called; an edge to or from a
    node that does not exist raises. *)
Definition forward (n : network) (feats : list vec) (edges : list (nat * nat)) : res (list vec) :=
  if forallb (fun e => (Nat.ltb (fst e) (List.length feats) && Nat.ltb (snd e) (List.length feats))%bool) edges
  then let x0 := map (fun r => relu (apply_linear (w_in n) r)) feats in
       Ok (map (apply_linear (w_out n)) (fold_left (layer n edges x0) (w_convs n) x0))
  else Err IndexError.
