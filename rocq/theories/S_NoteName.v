(** Specification for note names (C211). *)
From Coq Require Import QArith ZArith List.
From Verif Require Import PyBase S_Graph.
Import ListNotations.
Open Scope Z_scope.

(** The semitones above C that a letter stands for: code points of A-G and a-g. *)
Definition letters : list (Z * Z) :=
  [(67, 0); (68, 2); (69, 4); (70, 5); (71, 7); (65, 9); (66, 11); (99, 0); (100, 2); (101, 4); (102, 5); (103, 7); (97, 9); (98, 11)].
(** What an accidental adds: sharp signs, flat signs, double sharp, double flat, natural. *)
Definition signs : list (Z * Z) :=
  [(35, 1); (9839, 1); (98, -1); (33, -1); (9837, -1); (119082, 2); (119083, -2); (9838, 0)].
(** A decimal numeral without sign. *)
Inductive numeral : list Z -> Z -> Prop :=
| one_digit d : 0 <= d <= 9 -> numeral [48 + d] d
| more_digits l n d : numeral l n -> 0 <= d <= 9 -> numeral (l ++ [48 + d]) (10 * n + d).
(** One with a sign. *)
Definition signed (l : list Z) (z : Z) : Prop := (exists r, l = 43 :: r /\ numeral r z) \/ (exists r, l = 45 :: r /\ numeral r (- z)).
Definition total (l : list Z) : Z := fold_right Z.add 0 l.
(** [name] is letter, accidentals, octave, cents; without an octave there are no cents and the octave is 0. *)
Definition spelled (name : list Z) (p : Z) : Prop := exists c k accs ks octave o,
  In (c, k) letters /\ Forall2 (fun a n => In (a, n) signs) accs ks /\ (octave = [] /\ o = 0 \/ numeral octave o \/ signed octave o) /\
  (name = c :: accs ++ octave /\ p = 12 * (o + 1) + k + total ks \/
   octave <> [] /\ exists cents ct, name = c :: accs ++ octave ++ cents /\ signed cents ct /\
     nearest_even (inject_Z (12 * (o + 1) + k + total ks) + inject_Z ct / 100) p).
