(** Model of the scripts that check datasets: the reverse check of ngc_small_graph.py and the checks of
    example_read_complex_midi.py.
    Simplifications: tensors are lists; only the outcome of the assertions is modelled, not what is printed;
    exceptions carry their kind only. *)
From Verif Require Import PyBase.
Open Scope Z_scope.

(** One round of the reverse check: the features of a node, sorted, against the notes of its class number, padded
    with [zeros] zeros, cut to [size] and sorted; false: an error is printed.
    [ngc_small_graph.py:133-145, 240-254] *)
Fixpoint list_eqb (a b : list Z) : bool :=
  match a, b with
  | [], [] => true
  | x :: a', y :: b' => (x =? y) && list_eqb a' b'
  | _, _ => false
  end.
(** ngc_small_graph.py:138-143 (zeros: the number of rows), 246-252 (zeros and size: 5). *)
Definition reverse_ok (zeros size : nat) (notes features : list Z) : bool :=
  list_eqb (py_sort Z.ltb features) (py_sort Z.ltb (firstn size (notes ++ repeat 0 zeros))).

(** A graph with masks, as the loader yields it: masks, targets, labels, edges. [example_read_complex_midi.py:175-191] *)
Record checked : Type := mkCk { k_train : list bool; k_val : list bool; k_test : list bool; k_y : list Z; k_label : list Z; k_edges : list (Z * Z); k_nodes : Z }.
(** mask.sum(). [example_read_complex_midi.py:180] *)
Definition count (m : list bool) : Z := Z.of_nat (List.length (filter (fun x => x) m)).
(** Element-wise or: what + is for masks; and what logical_and is. [example_read_complex_midi.py:113-115, 186] *)
Definition mask_or (a b : list bool) : list bool := map (fun p => fst p || snd p) (combine a b).
(** example_read_complex_midi.py:113-115 *)
Definition mask_and (a b : list bool) : list bool := map (fun p => fst p && snd p) (combine a b).
(** t[mask]. [example_read_complex_midi.py:66-72] *)
Definition masked {A} (t : list A) (m : list bool) : list A := map fst (filter snd (combine t m)).
(** assert. [example_read_complex_midi.py:70-72] *)
Definition check (b : bool) : res unit := if b then Ok tt else Err AssertionError.
(** example_read_complex_midi.py:57-93 check_masking *)
Definition check_masking (k : checked) : res unit :=
  bind (check (list_eqb (masked (k_y k) (k_train k)) (masked (k_label k) (k_train k)))) (fun _ =>
  bind (check (list_eqb (masked (k_y k) (k_val k)) (masked (k_label k) (k_val k)))) (fun _ =>
  check (list_eqb (masked (k_y k) (k_test k)) (masked (k_label k) (k_test k))))).
(** Positions where a mask is true. [example_read_complex_midi.py:104-106] *)
Definition positions (m : list bool) : list nat := map fst (filter snd (combine (List.seq 0 (List.length m)) m)).
(** edge_index[:, positions]: columns of edges by the positions of nodes; IndexError beyond the last edge.
    [example_read_complex_midi.py:104-106] *)
Fixpoint columns (edges : list (Z * Z)) (ps : list nat) : res (list (Z * Z)) :=
  match ps with
  | [] => Ok []
  | i :: r => match nth_error edges i with
              | None => Err IndexError
              | Some e => bind (columns edges r) (fun l => Ok (e :: l))
              end
  end.
(** example_read_complex_midi.py:96-165 check_edge_index *)
Definition check_edge_index (k : checked) : res unit :=
  bind (columns (k_edges k) (positions (k_train k))) (fun tr =>
  bind (columns (k_edges k) (positions (k_val k))) (fun va =>
  bind (columns (k_edges k) (positions (k_test k))) (fun te =>
  bind (check (count (mask_and (k_train k) (k_val k)) =? 0)) (fun _ =>
  bind (check (count (mask_and (k_train k) (k_test k)) =? 0)) (fun _ =>
  bind (check (count (mask_and (k_val k) (k_test k)) =? 0)) (fun _ =>
  let top (l : list (Z * Z)) := forallb (fun e => fst e <=? k_nodes k - 1) l && forallb (fun e => snd e <=? k_nodes k - 1) l in
  let low (l : list (Z * Z)) := forallb (fun e => (0 <=? fst e) && (0 <=? snd e)) l in
  bind (check (top tr)) (fun _ => bind (check (top va)) (fun _ => bind (check (top te)) (fun _ =>
  bind (check (low tr)) (fun _ => bind (check (low va)) (fun _ => bind (check (low te)) (fun _ =>
  check (Z.of_nat (List.length (k_edges k)) =? count (k_train k) + count (k_val k) + count (k_test k)))))))))))))).
(** The checks of the main loop on one graph. [example_read_complex_midi.py:175-194] *)
Definition check_graph (k : checked) : res unit :=
  bind (check (k_nodes k =? count (k_train k) + count (k_val k) + count (k_test k))) (fun _ =>
  bind (check (count (mask_or (mask_or (k_train k) (k_val k)) (k_test k)) =? k_nodes k)) (fun _ =>
  bind (check_masking k) (fun _ => check_edge_index k))).
