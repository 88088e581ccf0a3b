(** Specification of a mutable mapping: the value of a key after a history of writes
    and deletions is that of the last write not followed by a deletion. *)
From Verif Require Import PyBase.

Inductive write (K V : Type) : Type := Put (k : K) (v : V) | Remove (k : K).
Arguments Put {K V}. Arguments Remove {K V}.

Fixpoint last_value {K V} (eqb : K -> K -> bool) (newest_first : list (write K V)) (k : K)
  : option V :=
  match newest_first with
  | [] => None
  | Put k' v :: older => if eqb k' k then Some v else last_value eqb older k
  | Remove k' :: older => if eqb k' k then None else last_value eqb older k
  end.

Definition value_after {K V} (eqb : K -> K -> bool) (hist : list (write K V)) (k : K)
  : option V := last_value eqb (rev hist) k.
From Verif Require Import M_Interval M_SortedDict.
(** Reading the calls of the model as writes. *)
Definition as_write {K V} (o : sd_op K V) : write K V :=
  match o with SdSet k v => Put k v | SdDel k => Remove k end.
(** For SortedIntervalDict only assignments are effective. *)
Definition sid_as_writes {V} (o : sid_op V) : list (write interval V) :=
  match o with SidSet k v => [Put k v] | _ => [] end.
Definition sid_writes {V} (ops : list (sid_op V)) : list (write interval V) :=
  flat_map sid_as_writes ops.
(** Time [x] satisfies the bounds of the slice [a:b] (a missing bound is unbounded). *)
Definition in_slice (a b : option Z) (x : Z) : Prop :=
  match a with Some s => (s <= x)%Z | None => True end /\
  match b with Some e => (x <= e)%Z | None => True end.
