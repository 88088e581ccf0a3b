(** Model of the sizes of splits in double precision: neural_graph_composer/midi_dataset.py,
    neural_graph_composer/transforms.py and ngc_shared.py.  Doubles as in M_Float.v. *)
From Coq Require Import Qround.
From Verif Require Import PyBase M_Note M_Events M_Float M_Dataset M_Transforms.
Open Scope Z_scope.

(** A ratio p/q as it is written in a program (0.7, 0.15): the nearest double.
    [midi_dataset.py:60-61] *)
Definition ratio_f (p q : Z) : Q := fl (inject_Z p / inject_Z q).
(** int(ratio * n): one rounded product, truncated. [midi_dataset.py:493-494, 641-642,
    transforms.py:95, ngc_shared.py:386, 401, 417] *)
Definition count_f (r : Q) (n : nat) : Z := Qtrunc (fl (r * inject_Z (Z.of_nat n))).
(** midi_dataset.py:490-507, 638-654 *)
Definition split_masks_f (train val : Q) (n : nat) (indices : list nat) : masks :=
  masks_of n (Z.to_nat (count_f train n)) (Z.to_nat (count_f val n)) indices.
(** ngc_shared.py:378-389 split, [shuffled] = ds.shuffle() and [perm] the permutation drawn by random_split *)
Definition split_ds_f {A} (ratio : Q) (shuffled : list A) (perm : list nat) : res (list A * list A) :=
  let k := count_f ratio (List.length shuffled) in
  if (k <? 0) || (Z.of_nat (List.length shuffled) <? k) then Err ValueError
  else bind (take shuffled (firstn (Z.to_nat k) perm)) (fun a => bind (take shuffled (skipn (Z.to_nat k) perm)) (fun b => Ok (a, b))).
