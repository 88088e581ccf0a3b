(** Model of neural_graph_composer/midi_reader.py: MidiReader.read on a loaded file, and
    MidiReader.to_pretty_midi without from_start/to_end.
    Simplifications: times are rationals; the loaded CustomPrettyMIDI object is the record [mfile]
    (get_tempo_changes is M_Ticks.get_tempo_changes); resolution and timing attributes of the
    tempo objects other than the qpm, logging and warnings are not modelled. *)
From Verif Require Import PyBase M_SortedDict M_Note M_Events M_Seq M_Seqs.
Open Scope Z_scope.

(** pretty_midi.Note and pretty_midi.Instrument: a bend is (pitch, time), a control change
    (number, value, time). [midi_reader.py:142-212] *)
Record rnote : Type := mkRN { rn_vel : Z; rn_pitch : Z; rn_start : Q; rn_end : Q }.
(** midi_reader.py:142-212 *)
Record rinst : Type := mkRI {
  ri_prog : Z; ri_drum : bool; ri_name : string;
  ri_notes : list rnote; ri_bends : list (Z * Q); ri_ccs : list (Z * Z * Q) }.
(** The parts of CustomPrettyMIDI that read consults: resolution, key_signature_changes
    (key_number, time), get_tempo_changes() (time, qpm), time_signature_changes
    (numerator, denominator, time), instruments. [midi_reader.py:61-113, 226-318] *)
Record mfile : Type := mkMF {
  mf_res : Z; mf_keys : list (Z * Q); mf_tempos : list (Q * Q);
  mf_times : list (Z * Z * Q); mf_insts : list rinst }.
(** A MidiNoteSequences object: tracks, total_time and the three signature lists; key data are
    (key, is_minor). [midi_reader.py:226-318 and midi_sequences.py:46-172] *)
Record song : Type := mkSong {
  so_ms : mseqs; so_total : Q;
  so_keys : list (sig (Z * bool)); so_tempos : list (sig Q); so_times : list (sig (Z * Z)) }.

(** midi_reader.py:76-88 read_key_signature; midi_key_signature.py:59-71. *)
Fixpoint read_keys (l : list (sig (Z * bool))) (ks : list (Z * Q)) : res (list (sig (Z * bool))) :=
  match ks with
  | [] => Ok l
  | (k, t) :: r =>
    let mode := k / 12 in
    if negb ((mode =? 0) || (mode =? 1)) then Err ValueError
    else match sig_add l t (k mod 12, mode =? 1) with
         | (Err e, _) => Err e
         | (Ok _, l') => read_keys l' r
         end
  end.
(** midi_reader.py:61-73 read_tempo_changes. *)
Fixpoint read_tempos (resolution : Z) (l : list (sig Q)) (ts : list (Q * Q)) : res (list (sig Q)) :=
  match ts with
  | [] => Ok l
  | (t, qpm) :: r =>
    match tempo_new t qpm resolution with
    | Err e => Err e
    | Ok _ => match sig_add l t qpm with
              | (Err e, _) => Err e
              | (Ok _, l') => read_tempos resolution l' r
              end
    end
  end.
(** midi_reader.py:91-112 read_time_signature: a ValueError becomes MidiReaderError. *)
Fixpoint read_times (l : list (sig (Z * Z))) (ts : list (Z * Z * Q)) : res (list (sig (Z * Z))) :=
  match ts with
  | [] => Ok l
  | (num, den, t) :: r =>
    match tsig_new t num den with
    | Err ValueError => Err MidiReaderError
    | Err e => Err e
    | Ok _ => match sig_add l t (num, den) with
              | (Err ValueError, _) => Err MidiReaderError
              | (Err e, _) => Err e
              | (Ok _, l') => read_times l' r
              end
    end
  end.

(** seqs[id].total_time = v. [midi_reader.py:226-318] *)
Definition set_track_total (s : mseqs) (id : Z) (v : Q) : res unit * mseqs :=
  match ms_getitem s id with
  | (Err e, s1) => (Err e, s1)
  | (Ok q, s1) => match reg s1 id with
                  | Some j => (Ok tt, put_track s1 j (q_set_total q v))
                  | None => (Err KeyError, s1)
                  end
  end.
(** midi_reader.py:160: the condition of the if statement. *)
Definition keep_note (s : mseqs) (total : Q) (id : Z) (n : rnote) : res bool * mseqs :=
  if Qeq_bool total 0 then (Ok true, s)
  else match ms_getitem s id with
       | (Err e, s1) => (Err e, s1)
       | (Ok q, s1) => (Ok (Qle_bool (q_total q) (rn_end n)), s1)
       end.
(** midi_reader.py:155-175 (one note of read_instrument) with 271-288 (the loop body of read run
    at the yield). *)
Definition read_note (times : list (sig (Z * Z))) (id : Z) (i : rinst) (st : mseqs * Q) (n : rnote) : res unit * (mseqs * Q) :=
  let '(s, total) := st in
  if qclose_def (rn_start n) (rn_end n) then (Ok tt, st)
  else match keep_note s total id n with
  | (Err e, s1) => (Err e, (s1, total))
  | (Ok false, s1) => (Ok tt, (s1, total))
  | (Ok true, s1) =>
    let total1 := if Qle_bool total (rn_end n) then rn_end n else total in
    match set_track_total s1 id (rn_end n) with
    | (Err e, s2) => (Err e, (s2, total1))
    | (Ok _, s2) =>
      match ms_get_track s2 id (ri_name i) (ri_prog i) (ri_drum i) with
      | (Err e, s3) => (Err e, (s3, total1))
      | (Ok q, s3) =>
        let '(num, den) := time_signature times (rn_start n) in
        match n_new (mkN (rn_pitch n) (rn_vel n) (ri_prog i) (ri_prog i) 0 num den (ri_drum i)
                         (rn_start n) (rn_end n) (-1) (-1)) with
        | Err e => (Err e, (s3, total1))
        | Ok nt => match q_add_note q nt with
                   | (Err e, _) => (Err e, (s3, total1))
                   | (Ok _, q') => (Ok tt, (put_track s3 id q', total1))
                   end
        end
      end
    end
  end.
(** midi_reader.py:155-175, 271-288 *)
Fixpoint each {A S} (f : S -> A -> res unit * S) (st : S) (l : list A) : res unit * S :=
  match l with
  | [] => (Ok tt, st)
  | a :: r => match f st a with (Err e, st') => (Err e, st') | (Ok _, st') => each f st' r end
  end.
(** midi_reader.py:151-153: enumerate(instruments) and create_track; then [body] on the track. *)
Definition read_inst {S} (ms : S -> mseqs) (put : S -> mseqs -> S)
           (body : Z -> rinst -> S -> res unit * S) (st : S) (p : Z * rinst) : res unit * S :=
  let '(k, i) := p in
  match ms_create (ms st) k (ri_prog i) (ri_name i) (ri_drum i) with
  | (Err e, s1) => (Err e, put st s1)
  | (Ok id, s1) => body id i (put st s1)
  end.
(** midi_reader.py:151-153 *)
Definition enumerate {A} (l : list A) : list (Z * A) := combine (map Z.of_nat (List.seq 0 (List.length l))) l.
(** midi_reader.py:142-175, 271-288. *)
Definition read_notes (times : list (sig (Z * Z))) (st : mseqs * Q) (l : list rinst) : res unit * (mseqs * Q) :=
  each (read_inst fst (fun st s => (s, snd st)) (fun id i st => each (read_note times id i) st (ri_notes i))) st (enumerate l).

(** midi_reader.py:192-194, 290-301. *)
Definition read_bend (total : Q) (id k : Z) (i : rinst) (s : mseqs) (b : Z * Q) : res unit * mseqs :=
  if Qeq_bool total 0 || Qle_bool total (snd b) then
    match ms_get_track s id (ri_name i) (ri_prog i) (ri_drum i) with
    | (Err e, s1) => (Err e, s1)
    | (Ok q, s1) => match b_new (fst b) (ri_prog i) k (Some (snd b)) (ri_drum i) with
                    | Err e => (Err e, s1)
                    | Ok x => (Ok tt, put_track s1 id (q_add_bend q x))
                    end
    end
  else (Ok tt, s).
(** midi_reader.py:210-212, 303-315. *)
Definition read_cc (total : Q) (id k : Z) (i : rinst) (s : mseqs) (c : Z * Z * Q) : res unit * mseqs :=
  let '(num, val, t) := c in
  if Qeq_bool total 0 || Qle_bool total t then
    match ms_get_track s id (ri_name i) (ri_prog i) (ri_drum i) with
    | (Err e, s1) => (Err e, s1)
    | (Ok q, s1) => (Ok tt, put_track s1 id (q_add_cc q (cc_new num val t (ri_prog i) k (ri_drum i) 4 (-1) (-1))))
    end
  else (Ok tt, s).
(** midi_reader.py:178-194 and 197-212. *)
Definition read_ctrl (body : Z -> Z -> rinst -> mseqs -> res unit * mseqs) (s : mseqs) (l : list rinst) : res unit * mseqs :=
  each (fun s p => read_inst (fun s => s) (fun _ s => s) (fun id i s => body id (fst p) i s) s p) s (enumerate l).
(** midi_reader.py:178-194, 197-212 *)
Definition read_bends (total : Q) (s : mseqs) (l : list rinst) : res unit * mseqs :=
  read_ctrl (fun id k i s => each (read_bend total id k i) s (ri_bends i)) s l.
(** midi_reader.py:178-194, 197-212 *)
Definition read_ccs (total : Q) (s : mseqs) (l : list rinst) : res unit * mseqs :=
  read_ctrl (fun id k i s => each (read_cc total id k i) s (ri_ccs i)) s l.

(** midi_reader.py:226-317 read, once the file is loaded. *)
Definition read (f : mfile) : res song :=
  bind (read_keys (sig_default (0, false)) (mf_keys f)) (fun keys =>
  bind (read_tempos (mf_res f) (sig_default (inject_Z DEFAULT_QPM)) (mf_tempos f)) (fun tempos =>
  bind (read_times (sig_default (4, 4)) (mf_times f)) (fun times =>
  match read_notes times (ms_empty (mf_res f), 0%Q) (mf_insts f) with
  | (Err e, _) => Err e
  | (Ok _, (s, total)) =>
    match read_bends total s (mf_insts f) with
    | (Err e, _) => Err e
    | (Ok _, s1) => match read_ccs total s1 (mf_insts f) with
                    | (Err e, _) => Err e
                    | (Ok _, s2) => Ok (mkSong s2 total keys tempos times)
                    end
    end
  end))).

(** ** Conversion back and writing *)
(** midi_sequences.py:517-535 truncate as called by midi_reader.py:332: [to_end] is passed as
    initial_time, which truncate passes on as the event_time of trim (534); slice then evaluates
    min(total_time, end) (midi_sequence.py:585), with end = None a TypeError; the loop before it
    (575-577) compares start times with None only, so it can only raise TypeError as well. *)
Definition truncate_to (s : mseqs) (to_end : option Q) : res Q :=
  match ms_events s with
  | [] => Err ValueError
  | _ => match to_end with
         | None => match ms_values s with [] => Ok (max_end (ms_events s)) | _ => Err TypeError end
         | Some e => match ms_truncate s e None with
                     | (Ok (Some t), _) => Ok t
                     | (Ok None, _) => Err TypeError
                     | (Err x, _) => Err x
                     end
         end
  end.
(** midi_reader.py:372-395: one instrument.  [program] of a MidiNoteSequence is set to 0 by its
    constructor (midi_sequence.py:126) and by nothing else. *)
Definition seq_to_inst (q : seq) (max_time : Q) : rinst :=
  let keep t := negb (Qeq_bool max_time 0) && Qltb t max_time in
  mkRI 0 (i_drum (q_instr q)) ""
       (map (fun n => mkRN (n_velocity n) (n_pitch n) (n_start n) (n_end n)) (q_notes q))
       (flat_map (fun b => match b_time b with Some t => if keep t then [(b_amount b, t)] else [] | None => [] end) (q_bends q))
       (flat_map (fun c => if keep (cc_time c) then [(cc_number c, cc_value c, cc_time c)] else []) (q_ccs q)).
(** midi_reader.py:341-342, 372-395: the instruments handed to line 397.  Each [sequence[k]] is a
    subscript read.  Simplification: the keys are those present when the loop starts. *)
Fixpoint conv_insts (s : mseqs) (keys : list Z) (max_time : Q) : res (list rinst) :=
  match keys with
  | [] => Ok []
  | k :: r => match ms_getitem s k with
              | (Err e, _) => Err e
              | (Ok q, s1) => bind (conv_insts s1 r max_time) (fun l => Ok (seq_to_inst q max_time :: l))
              end
  end.
(** midi_reader.py:341-342, 372-395, 397 *)
Definition to_instruments (so : song) (to_end : option Q) : res (list rinst) :=
  bind (truncate_to (so_ms so) to_end) (fun t =>
  bind (conv_insts (so_ms so) (sd_keys (m_tracks (so_ms so))) t) (fun l =>
  Ok (mkRI 0 false "" [] [] [] :: l))).
(** midi_reader.py:410-446 write, for arguments of the declared types: [exists_] tells whether
    the file exists; the remaining steps of to_pretty_midi and serialisation are [rest]. *)
Definition write (rest : list rinst -> res unit) (so : song) (filename : string) (exists_ : bool)
           (from_start to_end : option Q) (overwrite : bool) : res unit :=
  if Nat.eqb (sd_len (m_tracks (so_ms so))) 0 then Err ValueError
  else if String.eqb filename "" then Err ValueError
  else if negb overwrite && exists_ then Err FileExistsError
  else if match from_start with Some a => Qltb a 0 | None => false end then Err ValueError
  else if match to_end with Some b => Qltb b 0 | None => false end then Err ValueError
  else if match from_start, to_end with Some a, Some b => Qltb b a | _, _ => false end then Err ValueError
  else bind (to_instruments so to_end) rest.
