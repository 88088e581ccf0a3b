(** Model of example04_gae.py: VariationGae.predict_link.  The encoder is an oracle: what it returns, one vector
    of real numbers for each node, is the argument [z]. *)
From Coq Require Import Reals.
From Verif Require Import PyBase.

(** z[i] for an integer i, counted from the end if negative. [example04_gae.py:343] *)
Definition at_index {A} (z : list A) (i : Z) : res A :=
  let n := Z.of_nat (List.length z) in
  let k := (if i <? 0 then i + n else i)%Z in
  if (k <? 0)%Z then Err IndexError else match nth_error z (Z.to_nat k) with Some v => Ok v | None => Err IndexError end.
(** torch.dot of two vectors of the same length. [example04_gae.py:343] *)
Fixpoint dot (a b : list R) : R :=
  match a, b with x :: a', y :: b' => (x * y + dot a' b')%R | _, _ => 0%R end.
(** torch.sigmoid. [example04_gae.py:343] *)
Definition sigmoid (x : R) : R := (1 / (1 + exp (- x)))%R.
(** example04_gae.py:331-344 predict_link *)
Definition predict_link (z : list (list R)) (a b : Z) : res R :=
  bind (at_index z a) (fun u => bind (at_index z b) (fun v => Ok (sigmoid (dot u v)))).
