(** Specification of node drops that fail half-way. *)
From Coq Require Import QArith.
From Verif Require Import PyBase M_Load M_Transforms S_Seq S_Transforms.
Open Scope Z_scope.

(** The edges between kept nodes, with their attributes; without attributes the two rows of the edge index
    end up as edge index and edge attributes. *)
Definition edges_left (ks : list nat) (l : list (Z * Z)) (d d' : data) : Prop :=
  match d_ea d with
  | Some a => exists l' a', d_ei d' = EPairs l' /\ d_ea d' = Some a' /\ List.length a' = List.length l' /\ selects (fun ea => among ks (fst ea)) (combine l a) (combine l' a')
  | None => exists l', selects (among ks) l l' /\ d_ei d' = EFlat (map fst l') /\ d_ea d' = Some (map (fun ab => inject_Z (snd ab)) l')
  end.
(** The three masks are those of [d]. *)
Definition masks_as_before (d d' : data) : Prop := d_train d' = d_train d /\ d_val d' = d_val d /\ d_test d' = d_test d.

