(** Model of example03_lstm.py: dijkstra_traversal2 (the same function is in example03a_lstm.py).
    Simplifications: [edge_index] is the list of its columns, [edge_attr] the list of its entries (one number
    per edge), numbers are exact; node ids are the integers of the tensors.  [heapq] is a list from which
    heappop takes a least element, in the order of Python tuples. *)
From Verif Require Import PyBase.
Open Scope Z_scope.

(** (a, n) < (b, m) for tuples. [example03_lstm.py:506, 519] *)
Definition item_lt (x y : Q * Z) : bool :=
  if Qeq_bool (fst x) (fst y) then snd x <? snd y else Qltb (fst x) (fst y).
(** heapq.heappop: a least element and the others. [example03_lstm.py:506] *)
Fixpoint pop_least (x : Q * Z) (l : list (Q * Z)) : (Q * Z) * list (Q * Z) :=
  match l with
  | [] => (x, [])
  | y :: r => if item_lt y x then let (m, k) := pop_least y r in (m, x :: k)
              else let (m, k) := pop_least x r in (m, y :: k)
  end.
(** edge_index[1][edge_index[0] == node].tolist(). [example03_lstm.py:510] *)
Definition neighbors (edges : list (Z * Z)) (node : Z) : list Z :=
  map snd (filter (fun e => fst e =? node) edges).
(** edge_indices.nonzero(as_tuple=True)[0][0].item(): the position of the first edge between two nodes, if
    there is one. [example03_lstm.py:514-517] *)
Fixpoint first_edge (edges : list (Z * Z)) (u v : Z) : option nat :=
  match edges with
  | [] => None
  | e :: r => if (fst e =? u) && (snd e =? v) then Some O else option_map S (first_edge r u v)
  end.
(** The loop over the neighbors: what is pushed. [example03_lstm.py:511-519] *)
Fixpoint push_all (edges : list (Z * Z)) (attr : list Q) (visited : list Z) (dist : Q) (node : Z) (ns : list Z) (pq : list (Q * Z)) : res (list (Q * Z)) :=
  match ns with
  | [] => Ok pq
  | v :: r =>
    if existsb (Z.eqb v) visited then push_all edges attr visited dist node r pq
    else match first_edge edges node v with
         | None => push_all edges attr visited dist node r pq
         | Some i => match nth_error attr i with
                     | None => Err IndexError
                     | Some w => push_all edges attr visited dist node r ((dist + w, v)%Q :: pq)
                     end
         end
  end.
(** The while loop; [nodes] and [out] are the sequences built so far; None when [fuel] pops do not suffice.
    [example03_lstm.py:505-521] *)
Fixpoint traverse_loop (fuel : nat) (edges : list (Z * Z)) (attr : list Q) (pq : list (Q * Z)) (nodes : list Z) (out : list (Z * Z)) : option (res (list Z * list (Z * Z))) :=
  match pq with
  | [] => Some (Ok (nodes, out))
  | x :: r =>
    match fuel with
    | O => None
    | S f =>
      let (m, q) := pop_least x r in
      if existsb (Z.eqb (snd m)) nodes then traverse_loop f edges attr q nodes out
      else match push_all edges attr (nodes ++ [snd m]) (fst m) (snd m) (neighbors edges (snd m)) q with
           | Err e => Some (Err e)
           | Ok q' => traverse_loop f edges attr q' (nodes ++ [snd m]) (out ++ map (pair (snd m)) (neighbors edges (snd m)))
           end
    end
  end.
(** example03_lstm.py:494-521 dijkstra_traversal2; visited holds the same nodes as node_sequence. *)
Definition traverse (fuel : nat) (edges : list (Z * Z)) (attr : list Q) (start : Z) : option (res (list Z * list (Z * Z))) :=
  traverse_loop fuel edges attr [(0%Q, start)] [] [].
