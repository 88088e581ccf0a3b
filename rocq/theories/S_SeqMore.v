(** Specification for C153-C157. *)
From Coq Require Import Sorted Permutation.
From Verif Require Import PyBase M_Note M_Events M_Seq M_Seqs M_SeqMore.
Open Scope Z_scope.

(** The end of the last note, 0 without notes. *)
Definition end_of_last (l : list note) (t : Q) : Prop :=
  match l with
  | [] => (t == 0)%Q
  | _ => (forall n, In n l -> (n_end n <= t)%Q) /\ exists n, In n l /\ (n_end n == t)%Q
  end.
(** The changes of the sequence in a history of calls, leaving out questions. *)
Definition changes (ops : list x_op) : list q_op := flat_map (fun o => match o with XCall c => [c] | _ => [] end) ops.
(** The tempo list in force after a history. *)
Definition tempos_after (l : list (Q * Q)) (ops : list x_op) : list (Q * Q) :=
  fold_left (fun l o => match o with XTempos l' => l' | _ => l end) ops l.
Definition asks_last (off : Q) (o : x_op) : Prop := match o with XLast (Some x) => (x == off)%Q | _ => False end.
(** [b] agrees with [a] except for the resolution. *)
Definition same_but_resolution (a b : seq) : Prop :=
  q_instr b = q_instr a /\ q_pitched b = q_pitched a /\ q_drums b = q_drums a /\ q_total b = q_total a /\
  q_ccs b = q_ccs a /\ q_bends b = q_bends a /\ q_steps b = q_steps a.
(** [n] different values occur in [l]. *)
Definition distinct_count (l : list Z) (n : nat) : Prop :=
  exists u, NoDup u /\ (forall x, In x u <-> In x l) /\ List.length u = n.
(** A rounding mode: monotone, exact at 0. *)
Definition rounding (rnd : Q -> Q) : Prop := (forall a b, (a <= b)%Q -> (rnd a <= rnd b)%Q) /\ (rnd 0 == 0)%Q.
