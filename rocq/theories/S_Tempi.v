(** Specification for onsets and tempo estimation. *)
From Coq Require Import Sorted Permutation.
From Verif Require Import PyBase.
Open Scope Q_scope.

Definition total (l : list Q) : Q := fold_right Qplus 0 l.
(** What numpy.argsort promises: positions in an order that makes the values ascend. *)
Definition argsorts (f : list Q -> list nat) : Prop :=
  forall l, Permutation (f l) (seq 0 (List.length l)) /\ StronglySorted (fun i j => nth i l 0 <= nth j l 0) (f l).
(** Time from each onset to the next. *)
Definition gaps (l : list Q) : list Q := map (fun p => snd p - fst p) (combine l (tl l)).
(** Gaps above 50 ms and below 2 s count. *)
Definition rhythmic (g : Q) : Prop := 1 # 20 < g /\ g < 2.
(** [r] is [g] doubled as often as needed to reach 0.2 s. *)
Definition folded (g r : Q) : Prop :=
  exists k, r == g * 2 ^ (Z.of_nat k) /\ 1 # 5 <= r /\ forall j, (j < k)%nat -> g * 2 ^ (Z.of_nat j) < 1 # 5.

(** Onsets in order, leaving out those within a millisecond of the one before. *)
Definition fresh (l : list Q) : list Q :=
  match l with
  | [] => []
  | a :: r => a :: map snd (filter (fun p => Qltb (1 # 1000) (snd p - fst p)) (combine l r))
  end.
