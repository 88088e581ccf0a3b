(** Specification: what the name of a key means. *)
From Coq Require Import ZArith String Ascii.
Open Scope Z_scope.
(** The pitch class a key name stands for (letter, then # or b), and whether it ends in m. *)
Definition letter_class (c : Ascii.ascii) : option Z :=
  match String c EmptyString with
  | "C" => Some 0 | "D" => Some 2 | "E" => Some 4 | "F" => Some 5 | "G" => Some 7 | "A" => Some 9 | "B" => Some 11 | _ => None
  end%string.
Definition key_meaning (s : string) : option (Z * bool) :=
  match s with
  | String c r =>
    match letter_class c with
    | None => None
    | Some k =>
      if String.eqb r "" then Some (k, false) else if String.eqb r "m" then Some (k, true)
      else if String.eqb r "#" then Some ((k + 1) mod 12, false) else if String.eqb r "b" then Some ((k - 1) mod 12, false)
      else if String.eqb r "#m" then Some ((k + 1) mod 12, true) else if String.eqb r "bm" then Some ((k - 1) mod 12, true) else None
    end
  | EmptyString => None
  end.
