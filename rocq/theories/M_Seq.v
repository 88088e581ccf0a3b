(** Model of neural_graph_composer/midi/midi_sequence.py (MidiNoteSequence).  A sequence is a
    value; note objects shared between sequences (aliasing) are not modelled: every operation
    below is taken on sequences that share no note object.  The plain attributes program,
    ticks_per_quarter, quantized_step, tempo_signature, debug and the logger are not modelled. *)
From Coq Require Import Qround.
From Verif Require Import PyBase M_Note M_Events.
Open Scope Z_scope.

(** midi_sequence.py:105-141 attributes. *)
Record seq : Type := mkQ {
  q_instr : instr; q_pitched : list note; q_drums : list note; q_total : Q;
  q_ccs : list cc; q_bends : list bend; q_res : Z; q_steps : Q }.

(** midi_sequence.py:105-141 *)
Definition generic : instr := mkI 0 "Generic" false.

(** max([n.end_time for n in l], default=0.0). [midi_sequence.py:117, 293, 296] *)
Definition max_end (l : list note) : Q :=
  match l with [] => 0%Q | n :: r => fold_left (fun m x => if Qltb m (n_end x) then n_end x else m) r (n_end n) end.

(** midi_sequence.py:276-282 notes: the list a caller sees. *)
Definition q_notes (s : seq) : list note := if i_drum (q_instr s) then q_drums s else q_pitched s.

(** midi_sequence.py:258-269 total_time setter (finite values). *)
Definition q_set_total (s : seq) (v : Q) : seq :=
  mkQ (q_instr s) (q_pitched s) (q_drums s) (Qmaxb 0 v) (q_ccs s) (q_bends s) (q_res s) (q_steps s).
(** Replace the visible list in place (list methods on self.notes). [midi_sequence.py:276-296] *)
Definition q_put (s : seq) (l : list note) : seq :=
  if i_drum (q_instr s)
  then mkQ (q_instr s) (q_pitched s) l (q_total s) (q_ccs s) (q_bends s) (q_res s) (q_steps s)
  else mkQ (q_instr s) l (q_drums s) (q_total s) (q_ccs s) (q_bends s) (q_res s) (q_steps s).
(** midi_sequence.py:284-296 notes setter. *)
Definition q_set_notes (s : seq) (l : list note) : seq := q_set_total (q_put s l) (max_end l).
(** midi_sequence.py:699-704 _adjust_total_time. *)
Definition q_adjust (s : seq) : seq := q_set_total s (max_end (q_notes s)).

(** midi_sequence.py:50-141 __init__: the notes go to the list selected by the instrument's drum
    flag; the drum_events argument is never used. *)
Definition q_new (notes : list note) (i : instr) (resolution : Z) : seq :=
  mkQ i (if i_drum i then [] else notes) (if i_drum i then notes else []) (max_end notes) [] [] resolution 0.

(** midi_sequence.py:317-330 append, 332-345 extend (the same code): one note or a list. *)
Definition q_append1 (s : seq) (n : note) : seq :=
  q_set_total (q_put s (q_notes s ++ [n])) (Qmaxb (q_total s) (n_end n)).
(** midi_sequence.py:317-330, 332-345 *)
Definition q_extend (s : seq) (l : list note) : res unit * seq :=
  match l with
  | [] => (Err ValueError, s)
  | _ => (Ok tt, q_set_total (q_put s (q_notes s ++ l)) (Qmaxb (q_total s) (max_end l)))
  end.

(** midi_sequence.py:357-375 add_note. *)
Definition q_add_note (s : seq) (n : note) : res unit * seq :=
  if negb (n_instrument n =? i_num (q_instr s)) then (Err ValueError, s)
  else
    let s1 := if n_drum n
              then mkQ (q_instr s) (q_pitched s) (q_drums s ++ [n]) (q_total s) (q_ccs s) (q_bends s) (q_res s) (q_steps s)
              else mkQ (q_instr s) (q_pitched s ++ [n]) (q_drums s) (q_total s) (q_ccs s) (q_bends s) (q_res s) (q_steps s) in
    (Ok tt, q_set_total s1 (Qmaxb (q_total s1) (n_end n))).

(** midi_sequence.py:396-408. *)
Definition q_add_cc (s : seq) (c : cc) : seq :=
  mkQ (q_instr s) (q_pitched s) (q_drums s) (q_total s) (q_ccs s ++ [c]) (q_bends s) (q_res s) (q_steps s).
(** midi_sequence.py:396-408 *)
Definition q_add_bend (s : seq) (b : bend) : seq :=
  mkQ (q_instr s) (q_pitched s) (q_drums s) (q_total s) (q_ccs s) (q_bends s ++ [b]) (q_res s) (q_steps s).

(** midi_sequence.py:410-414 is_quantized. *)
Definition q_is_quantized (s : seq) : bool := forallb n_is_quantized (q_notes s).

(** key=lambda n: n.start_time. [midi_sequence.py:353, 390] *)
Definition start_lt (a b : note) : bool := Qltb (n_start a) (n_start b).

(** midi_sequence.py:347-355 as_note_seq: sorts the visible list in place. *)
Definition q_as_note_seq (s : seq) : list Z * seq :=
  match q_notes s with
  | [] => ([], s)
  | l => let l' := py_sort start_lt l in (map n_pitch l', q_put s l')
  end.

(** midi_sequence.py:382-394 calculate_min_step. *)
Fixpoint gaps (l : list note) : list Q :=
  match l with
  | a :: ((b :: _) as r) => if Qltb (n_end a) (n_start b) then (n_start b - n_start a)%Q :: gaps r else gaps r
  | _ => []
  end.
(** midi_sequence.py:382-394 *)
Definition q_min_step (s : seq) : Q :=
  if Nat.ltb (List.length (q_notes s)) 2 then 0%Q
  else match gaps (py_sort start_lt (q_notes s)) with
       | [] => 0%Q
       | g :: r => fold_left (fun m x => if Qltb x m then x else m) r g
       end.

(** midi_sequence.py:416-422 stretch, 500-509 shift_times. *)
Definition q_stretch (s : seq) (k : Q) : seq :=
  q_adjust (q_put s (map (fun n => n_stretch n k) (q_notes s))).
(** midi_sequence.py:416-422, 500-509 *)
Definition q_shift (s : seq) (d : Q) : res unit * seq :=
  if q_is_quantized s then (Err ValueError, s)
  else let s1 := q_put s (map (fun n => n_shift n d) (q_notes s)) in
       (Ok tt, q_set_total s1 (q_total s1 + d)%Q).

(** midi_sequence.py:424-433 truncate (deep copies; default resolution 220). *)
Definition q_truncate (s : seq) (t : Q) : seq :=
  let new := q_new (filter (fun n => Qle_bool (n_end n) t) (q_notes s)) (q_instr s) 220 in
  q_set_total new (Qminb (q_total s) t).

(** Python's l[:k]. [midi_sequence.py:760-786] *)
Definition py_take {A} (l : list A) (k : Z) : list A :=
  if 0 <=? k then firstn (Z.to_nat k) l else firstn (Z.to_nat (Z.of_nat (List.length l) + k)) l.
(** midi_sequence.py:760-766 cut_in_place, 777-786 cut. *)
Definition q_cut_in_place (s : seq) (k : Z) : seq :=
  let s1 := q_set_notes s (py_take (q_notes s) k) in q_set_total s1 (max_end (q_notes s1)).
(** midi_sequence.py:760-766, 777-786 *)
Definition q_cut (s : seq) (k : Z) : res seq :=
  let l := py_take (q_notes s) k in
  match rev l with
  | [] => Err IndexError
  | z :: _ => Ok (q_set_total (q_new l (q_instr s) 220) (Qminb (q_total s) (n_end z)))
  end.

(** midi_sequence.py:768-775 insert. *)
Definition q_insert (s : seq) (n : note) : seq := q_adjust (q_put s (insort_left n_ltb (q_notes s) n)).

(** midi_sequence.py:680-691 clone_empty (keeps total, steps, instrument, resolution),
    666-678 clone (the drum list is not copied). *)
Definition q_clone_empty (s : seq) : seq :=
  mkQ (q_instr s) [] [] (Qmaxb 0 (q_total s)) [] [] (q_res s) (q_steps s).
(** midi_sequence.py:680-691, 666-678 *)
Definition q_clone (s : seq) : seq :=
  mkQ (q_instr s) (q_pitched s) [] (Qmaxb 0 (q_total s)) (q_ccs s) (q_bends s) (q_res s) (q_steps s).

(** midi_sequence.py:553-586 slice: the loop over the visible notes, then total_time. *)
Fixpoint slice_loop (acc : seq) (l : list note) (a b : Q) : res seq :=
  match l with
  | [] => Ok acc
  | n :: r =>
    if Qltb (n_start n) a || Qle_bool b (n_start n) then slice_loop acc r a b
    else match n_set_end n (Qminb (n_end n) b) with                      (* 580-581, on a copy *)
         | (Err e, _) => Err e
         | (Ok _, _) => match q_add_note acc n with                      (* 582: the original *)
                        | (Err e, _) => Err e
                        | (Ok _, acc') => slice_loop acc' r a b
                        end
         end
  end.
(** [midi_sequence.py:553-586] *)
Definition q_slice (s : seq) (a b : Q) (strict : bool) : res seq :=
  if strict && negb (q_is_quantized s) then Err ValueError
  else bind (slice_loop (q_clone_empty s) (q_notes s) a b) (fun r =>
       Ok (q_set_total r (Qminb (q_total s) b))).

(** midi_sequence.py:720-729 validate_instrument, 731-758 merge. *)
Definition q_validate (s : seq) : bool := forallb (fun n => n_instrument n =? i_num (q_instr s)) (q_notes s).
(** midi_sequence.py:720-729, 731-758 *)
Definition q_merge (s o : seq) : res unit * seq :=
  if negb (i_eqb (q_instr s) (q_instr o)) || negb (q_res s =? q_res o) then (Err ValueError, s)
  else if negb (q_validate s) then (Err ValueError, s)
  else if negb (q_validate o) then (Err ValueError, s)
  else
    let all := py_sort n_ltb (q_notes s ++ q_notes o) in
    let s1 := q_set_notes s [] in
    (Ok tt, q_adjust (q_put s1 (fold_left (insort_left n_ltb) all []))).

(** midi_sequence.py:206-229 __add__.  note.instrument is an int, self.instrument an object:
    they always differ, so [any] is true whenever there is a note. *)
Definition q_add (s o : seq) : res seq :=
  if negb (i_eqb (q_instr s) (q_instr o)) then Err ValueError
  else match q_notes s, q_notes o with
       | [], [] => Ok (q_set_notes (q_new [] (q_instr s) 220) [])
       | _, _ => Err ValueError
       end.

(** midi_sequence.py:511-551 extract. *)
Fixpoint pairs_sorted (l : list Q) : bool :=
  match l with a :: ((b :: _) as r) => Qle_bool a b && pairs_sorted r | _ => true end.
(** 538-539: index of the window holding [t]. [midi_sequence.py:538-539] *)
Fixpoint find_window (l : list Q) (t : Q) : option (nat * Q * Q) :=
  match l with
  | a :: ((b :: _) as r) =>
    if Qle_bool a t && Qltb t b then Some (O, a, b)
    else match find_window r t with Some (i, x, y) => Some (S i, x, y) | None => None end
  | _ => None
  end.
(** 538-539, midi_sequence.py:538-539 *)
Fixpoint set_nth {A} (l : list A) (i : nat) (x : A) : list A :=
  match l, i with
  | [], _ => [] | _ :: r, O => x :: r | y :: r, S j => y :: set_nth r j x end.
(** 543-549: append a deep copy, then move it into the window. [midi_sequence.py:511-551] *)
Definition extract_note (sub : seq) (n : note) (a b : Q) : res seq :=
  match n_set_start n (n_start n - a)%Q with
  | (Err e, _) => Err e
  | (Ok _, n1) =>
    match n_set_end n1 (Qminb (n_end n) b - a)%Q with
    | (Err e, _) => Err e
    | (Ok _, n2) =>
      match n_set_end n2 (Qminb (n_end n2) (q_total sub + n_start n2)) with
      | (Err e, _) => Err e
      | (Ok _, n3) => Ok (q_set_total (q_put sub (q_notes sub ++ [n3])) (n_end n3 + n_start n3)%Q)
      end
    end
  end.
(** 543-549, midi_sequence.py:511-551 *)
Fixpoint extract_loop (subs : list seq) (l : list note) (splits : list Q) (first : Q) : res (list seq) :=
  match l with
  | [] => Ok subs
  | n :: r =>
    if Qltb (n_start n) first then extract_loop subs r splits first
    else match find_window splits (n_start n) with
         | None => Ok subs
         | Some (i, a, b) =>
           match nth_error subs i with
           | None => Err IndexError
           | Some sub => match extract_note sub n a b with
                         | Err e => Err e
                         | Ok sub' => extract_loop (set_nth subs i sub') r splits first
                         end
           end
         end
  end.
(** 543-549, midi_sequence.py:511-551 *)
Definition q_extract (s : seq) (splits : list Q) : res (list seq) :=
  if q_is_quantized s then Err ValueError
  else match splits with
       | [] => Err TypeError
       | [_] => Err TypeError
       | first :: _ =>
         if negb (pairs_sorted splits) then Err AssertionError
         else if existsb (fun t => Qle_bool (q_total s) t) (removelast splits) then Err TypeError
         else extract_loop (repeat (q_new [] generic 220) (List.length splits - 1))
                           (py_sort start_lt (q_notes s)) splits first
       end.

(** midi_sequence.py:435-467 compute_intervals.  Inner loops 453-454 and 457-465. *)
Fixpoint drop_ended (l : list note) (t : Q) : list note :=
  match l with n :: r => if Qle_bool (n_end n) t then drop_ended r t else l | [] => [] end.
(** midi_sequence.py:435-467, 453-454, 457-465 *)
Fixpoint take_started (l span : list note) (ivs : list Q) (t : Q) (skip : bool) : list note * list note * list Q :=
  match l with
  | n :: r =>
    if Qltb (n_start n) t then
      let span' := if Qltb t (n_end n) then span ++ [n] else span in
      let ivs' := if negb (skip && negb (match span' with [] => true | _ => false end)) then ivs ++ [t] else ivs in
      take_started r span' ivs' t skip
    else (l, span, ivs)
  | [] => ([], span, ivs)
  end.
(** midi_sequence.py:435-467, 453-454, 457-465 *)
Fixpoint intervals_loop (l span : list note) (ivs splits : list Q) (skip : bool) : list Q :=
  match splits with
  | [] => ivs
  | t :: ts =>
    let '(l', span', ivs') := take_started l (drop_ended span t) ivs t skip in
    intervals_loop l' span' ivs' ts skip
  end.
(** numpy.arange(span, total, span) for span > 0. [midi_sequence.py:485] *)
Definition arange (span total : Q) : list Q :=
  map (fun i => (span + inject_Z (Z.of_nat i) * span)%Q)
      (List.seq 0 (Z.to_nat (Qceiling ((total - span) / span)))).
(** midi_sequence.py:469-498 split; [splits] is numpy.arange(span, total, span) or the sorted
    list given.  Line 498 calls a method that does not exist. *)
Definition q_split (s : seq) (splits : list Q) (skip : bool) : res (list seq) :=
  let ivs := intervals_loop (py_sort start_lt (q_notes s)) [] [0%Q] splits skip in
  let ivs' := if Qltb (last ivs 0%Q) (q_total s) then ivs ++ [q_total s] else ivs in
  if Nat.leb (List.length ivs') 1 then Ok [] else Err AttributeError.

(** midi_sequence.py:595-629 _quantize, 631-639 quantize. *)
Fixpoint quantize_notes (l : list note) (sps : Z) (amount : Q) (steps : Q) : res (list note) * Q :=
  match l with
  | [] => (Ok [], steps)
  | n :: r =>
    match n_quantize n sps amount None with
    | Err e => (Err e, steps)
    | Ok n' =>
      let steps' := if Qltb steps (n_qe n) then n_qe n else steps in    (* 617: the old note's step *)
      match quantize_notes r sps amount steps' with
      | (Ok r', st) => (Ok (n' :: r'), st) | (Err e, st) => (Err e, st) end
    end
  end.
(** [midi_sequence.py:595-639] *)
Fixpoint quantize_ccs (l : list cc) (sps : Z) (amount : Q) : res (list cc) :=
  match l with
  | [] => Ok []
  | c :: r => bind (cc_quantize c sps amount) (fun c' => bind (quantize_ccs r sps amount) (fun r' => Ok (c' :: r')))
  end.
(** midi_sequence.py:595-639 *)
Definition with_steps (s : seq) (v : Q) : seq :=
  mkQ (q_instr s) (q_pitched s) (q_drums s) (q_total s) (q_ccs s) (q_bends s) (q_res s) v.
(** midi_sequence.py:595-639 *)
Definition with_ccs (s : seq) (v : list cc) : seq :=
  mkQ (q_instr s) (q_pitched s) (q_drums s) (q_total s) v (q_bends s) (q_res s) (q_steps s).
(** midi_sequence.py:595-639 *)
Definition q_quantize (s : seq) (sps : Z) (amount : Q) : res unit * seq :=
  match quantize_notes (q_notes s) sps amount (q_steps s) with
  | (Err e, st) => (Err e, with_steps s st)
  | (Ok l, st) =>
    match quantize_ccs (q_ccs s) sps amount with
    | Err e => (Err e, with_steps s st)
    | Ok cs => (Ok tt, with_ccs (q_set_notes (with_steps s st) l) cs)
    end
  end.

(** The mutating calls on one sequence. [midi_sequence.py:284-786] *)
Inductive q_op : Type :=
| QAddNote (n : note) | QAppend (n : note) | QExtend (l : list note) | QInsert (n : note)
| QSetNotes (l : list note) | QCutInPlace (k : Z) | QStretch (k : Q) | QShift (d : Q)
| QMerge (o : seq) | QQuantize (sps : Z) (amount : Q) | QAsNoteSeq | QAddCC (c : cc) | QAddBend (b : bend).
(** midi_sequence.py:284-786 *)
Definition q_do (s : seq) (o : q_op) : res unit * seq :=
  match o with
  | QAddNote n => q_add_note s n
  | QAppend n => (Ok tt, q_append1 s n)
  | QExtend l => q_extend s l
  | QInsert n => (Ok tt, q_insert s n)
  | QSetNotes l => (Ok tt, q_set_notes s l)
  | QCutInPlace k => (Ok tt, q_cut_in_place s k)
  | QStretch k => (Ok tt, q_stretch s k)
  | QShift d => q_shift s d
  | QMerge o => q_merge s o
  | QQuantize sps a => q_quantize s sps a
  | QAsNoteSeq => (Ok tt, snd (q_as_note_seq s))
  | QAddCC c => (Ok tt, q_add_cc s c)
  | QAddBend b => (Ok tt, q_add_bend s b)
  end.
(** midi_sequence.py:284-786 *)
Definition q_run (s : seq) (ops : list q_op) : seq := fold_left (fun s o => snd (q_do s o)) ops s.
