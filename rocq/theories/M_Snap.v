(** Model of compute_data of neural_graph_composer/midi_graph_builder.py with tolerance_auto in double
    precision: the notes of a sequence grouped by the hash of their start moved to a multiple of the
    tolerance.  The tolerance, which numpy's percentile returns, is an argument: any double >= 0. *)
From Verif Require Import PyBase M_Note M_Ticks M_Seq M_Chord M_Float.
Open Scope Z_scope.

(** midi_graph_builder.py:728-731: the adjusted time of a start.  Python's round(y, 2) takes the nearest
    hundredth of the double y, ties to even, and then the double nearest to that; an int below 2^53 times a
    float is the rounded product (the int is the rounded value of a double, so converting it is exact). *)
Definition snap (tol start : Q) : Q :=
  if Qeq_bool tol 0 then start
  else let m := round_half_even (fl (start / tol)) in
       fl (round_digits (fl (inject_Z m * tol)) 2).
(** midi_graph_builder.py:719-743: the loop of compute_data. *)
Fixpoint group_notes_f (e : env) (tol : Q) (data : list (Z * list note)) (longest : Z) (l : list note)
  : res (list (Z * list note) * Z) :=
  match l with
  | [] => Ok (data, longest)
  | n :: r =>
    if n_drum n || (n_velocity n =? 0) then group_notes_f e tol data longest r
    else if Qltb (n_start n) 0 then Err AssertionError
    else
      let a := snap tol (n_start n) in
      if Qltb a 0 then Err AssertionError
      else
        let k := e_thash e a in
        let g := match dict_get Z.eqb k data with Some g => g | None => [] end ++ [n] in
        group_notes_f e tol (dict_set Z.eqb k g data) (Z.max longest (Z.of_nat (List.length g))) r
  end.
(** midi_graph_builder.py:695-749 compute_data with tolerance_auto, [tol] the automatic tolerance. *)
Definition compute_data_f (e : env) (s : seq) (tol : Q) (filter_single : bool) : res (list (Z * list note) * Z) :=
  bind (group_notes_f e tol [] 0 (q_notes s)) (fun p =>
  Ok (if filter_single then filter (fun kv => Nat.ltb 1 (List.length (snd kv))) (fst p) else fst p, snd p)).
