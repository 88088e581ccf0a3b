(** Model of further parts of midi_sequence.py, midi_sequences.py, midi_instruments.py and
    midi_graph_builder.py: cached answers, orders, counts, the resolution setter and relative
    velocity scaling. *)
From Coq Require Import Qround.
From Verif Require Import PyBase M_SortedDict M_Note M_Events M_Seq M_Seqs.
Open Scope Z_scope.

(** ** Cached answers of one MidiNoteSequence (functools.cache keeps them per object and argument) *)
(** midi_sequence.py:641-662: the object, its tempo_signature attribute (time, qpm), the cached answer
    of initial_tempo() and those of truncate_to_last_event(offset) by offset. *)
Record xseq : Type := mkX { x_seq : seq; x_tempos : list (Q * Q); x_tempo : option (option Q); x_last : list (Q * Q) }.
(** midi_sequence.py:641-651 initial_tempo without the cache: the time of a signature at 0, not its qpm. *)
Definition seq_initial_tempo (l : list (Q * Q)) : option Q :=
  match l with
  | [] => Some (inject_Z DEFAULT_PPQ)
  | _ => match find (fun p => Qeq_bool (fst p) 0) l with Some p => Some (fst p) | None => None end
  end.
(** midi_sequence.py:653-664 truncate_to_last_event without the cache. *)
Definition seq_last_event (s : seq) (offset : Q) : Q := (max_end (q_notes s) + offset)%Q.
(** Calls: any method of M_Seq, assigning tempo_signature, and the two cached methods (None offset:
    659-661). [midi_sequence.py:641-662] *)
Inductive x_op : Type := XCall (o : q_op) | XTempos (l : list (Q * Q)) | XTempo | XLast (offset : option Q).
(** midi_sequence.py:641-662; a call of the first two kinds answers None here. *)
Definition x_step (st : xseq) (o : x_op) : option Q * xseq :=
  match o with
  | XCall c => (None, mkX (snd (q_do (x_seq st) c)) (x_tempos st) (x_tempo st) (x_last st))
  | XTempos l => (None, mkX (x_seq st) l (x_tempo st) (x_last st))
  | XTempo =>
    match x_tempo st with
    | Some a => (a, st)
    | None => let a := seq_initial_tempo (x_tempos st) in (a, mkX (x_seq st) (x_tempos st) (Some a) (x_last st))
    end
  | XLast None => (None, st)
  | XLast (Some off) =>
    match find (fun p => Qeq_bool (fst p) off) (x_last st) with
    | Some p => (Some (snd p), st)
    | None => let a := seq_last_event (x_seq st) off in (Some a, mkX (x_seq st) (x_tempos st) (x_tempo st) ((off, a) :: x_last st))
    end
  end.
(** midi_sequence.py:641-662 *)
Definition x_run (st : xseq) (ops : list x_op) : xseq := fold_left (fun st o => snd (x_step st o)) ops st.
(** midi_sequence.py:105-141: a sequence nothing was asked about. *)
Definition x_new (s : seq) (tempos : list (Q * Q)) : xseq := mkX s tempos None [].

(** ** Orders *)
(** midi_sequence.py:189-204 __lt__ of two MidiNoteSequence objects, given with their id(). *)
Definition obj_ltb (a b : Z * seq) : bool :=
  if i_num (q_instr (snd a)) =? i_num (q_instr (snd b)) then fst a <? fst b
  else i_num (q_instr (snd a)) <? i_num (q_instr (snd b)).
(** midi_instruments.py:104-109 __lt__, 97-102 __ne__. *)
Definition instr_ltb (a b : instr) : bool := i_num a <? i_num b.
(** midi_instruments.py:97-102 *)
Definition instr_neb (a b : instr) : bool := negb (i_eqb a b).

(** ** Counts of a MidiNoteSequences *)
(** midi_sequences.py:292-298 num_track. *)
Definition num_track (s : mseqs) : nat := sd_len (m_tracks s).
(** set(...) of integers: each value once. [midi_sequences.py:300-307] *)
Definition zset (l : list Z) : list Z := fold_left (fun s k => if existsb (Z.eqb k) s then s else s ++ [k]) l [].
(** midi_sequences.py:300-307 num_instruments. *)
Definition num_instruments (s : mseqs) : nat :=
  List.length (zset (map (fun q => i_num (q_instr q)) (ms_values s))).
(** midi_sequences.py:326-337 instrument_midi_seq_len. *)
Definition instrument_midi_seq_len (s : mseqs) (idx : Z) : nat :=
  match trk s idx with Some q => List.length (q_notes q) | None => 0%nat end.
(** midi_sequences.py:551-555 instruments. *)
Definition ms_instruments (s : mseqs) : list instr := map q_instr (ms_values s).

(** ** Resolution *)
(** midi_sequence.py:167-171: the note times scaled by [diff] and divided by [old]. *)
Definition rescale_time (diff old : Q) (n : note) : note :=
  mkN (n_pitch n) (n_velocity n) (n_program n) (n_instrument n) (n_voice n) (n_num n) (n_den n) (n_drum n)
      (n_start n * diff / old)%Q (n_end n * diff / old)%Q (n_qs n) (n_qe n).
(** midi_sequence.py:154-171 resolution setter with an int: the attribute is set (161) before the old
    value is read back from it (163). *)
Definition q_set_resolution (s : seq) (v : Z) : seq :=
  let s1 := mkQ (q_instr s) (q_pitched s) (q_drums s) (q_total s) (q_ccs s) (q_bends s) v (q_steps s) in
  let old := q_res s1 in
  if negb (old =? v)
  then q_put s1 (map (rescale_time (inject_Z v / inject_Z old) (inject_Z old)) (q_notes s1))
  else s1.

(** ** Relative velocities *)
(** midi_graph_builder.py:656-666 scale_relative_velocities; [rnd] is the rounding of each floating point
    operation.  A mean of 0 makes numpy divide by zero and convert a NaN: no answer. *)
Definition scale_relative (rnd : Q -> Q) (l : list Z) (factor : Q) : option (list Z) :=
  match l with
  | [] => Some []
  | _ =>
    let avg := rnd (inject_Z (fold_right Z.add 0%Z l) / inject_Z (Z.of_nat (List.length l)))%Q in
    if Qeq_bool avg 0 then None
    else Some (map (fun v => Qfloor (Qminb 127 (Qmaxb 0 (rnd (rnd (rnd (inject_Z v / avg) * factor) * avg))))) l)%Q
  end.
(** midi_graph_builder.py:580-587 same_start_time. *)
Definition same_start_time (n : note) (tolerance : Q) : bool := Qltb (Qabsb (n_start n - n_start n)) tolerance.
