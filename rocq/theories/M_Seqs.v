(** Model of neural_graph_composer/midi/midi_sequences.py (MidiNoteSequences).
    The tracks and the three signature lists do not interact and are modelled separately.
    filename, debug flags, printing and logging are not modelled.  A track returned to the caller
    is the stored object; [MsMutate] models the caller changing it in place.  Two entries of the
    track table holding one and the same object are not modelled. *)
From Verif Require Import PyBase M_SortedDict M_Note M_Events M_Seq.
Open Scope Z_scope.

(** ** Signature lists *)
(** A MidiTimeSignature, MidiKeySignature or MidiTempoSignature: time, internal sequence number,
    and the other fields as [g_data]. [midi_sequences.py:343-483] *)
Record sig (A : Type) : Type := mkSig { g_time : Q; g_seq : Z; g_data : A }.
Arguments mkSig {A}. Arguments g_time {A}. Arguments g_seq {A}. Arguments g_data {A}.

(** midi_time_signature.py:152-156, 273-281; midi_key_signature.py:73-81: __lt__. *)
Definition sig_ltb {A} (a b : sig A) : bool :=
  if qclose_def (g_time a) (g_time b) then g_seq a <? g_seq b else Qltb (g_time a) (g_time b).

(** midi_sequences.py:339-341 is_close_to_zero. *)
Definition near (a b : Q) : bool := Qltb (Qabsb (a - b)) (1 # 1000000).

(** midi_sequences.py:343-364 add_time_signatures, 366-394 add_key_signatures, 396-415
    add_tempo_signature (386 changes a counter nobody reads). *)
Definition sig_add {A} (l : list (sig A)) (t : Q) (d : A) : res unit * list (sig A) :=
  match rev l with
  | [] => (Err IndexError, l)
  | z :: _ =>
    let v := mkSig t (g_seq z + 1) d in
    match l with
    | f :: r => if near (g_time f) t then (Ok tt, v :: r) else (Ok tt, insort_left sig_ltb l v)
    | [] => (Err IndexError, l)
    end
  end.
(** midi_sequences.py:122-129: the list when none is given; [d] is 4/4, C major or 120 qpm. *)
Definition sig_default {A} (d : A) : list (sig A) := [mkSig 0%Q 0 d].
(** midi_sequences.py:122-129, 120 *)
Definition sig_run {A} (l : list (sig A)) (adds : list (Q * A)) : list (sig A) :=
  fold_left (fun l p => snd (sig_add l (fst p) (snd p))) adds l.

(** Python l[i] with i = -1 allowed, on a non-empty list. [midi_sequences.py:570-614] *)
Definition at_or_last {A} (l : list A) (i : nat) (d : A) : A :=
  match i with O => last l d | S j => nth j l d end.
(** midi_sequences.py:569-585 time_signature, 587-602 tempo_signature: [early] is the answer
    for a negative time, [none] for an empty list.  The cache is cleared by every add. *)
Definition sig_at {A} (l : list (sig A)) (early none : A) (dflt : A) (t : Q) : A :=
  if Qltb t 0 then early
  else match l with
       | [] => none
       | z :: _ => g_data (at_or_last l (bisect_right sig_ltb l (mkSig t 0 dflt)) z)
       end.
(** midi_sequences.py:604-613 key_signature: no test for a negative time. *)
Definition key_at {A} (l : list (sig A)) (none : A) (dflt : A) (t : Q) : A :=
  match l with
  | [] => none
  | z :: _ => g_data (at_or_last l (bisect_right sig_ltb l (mkSig t 0 dflt)) z)
  end.
(** midi_sequences.py:604-613 *)
Definition DEFAULT_PPQ : Z := 480.   (* midi_spec.py:56 *)
(** 480, midi_spec.py:56 *)
Definition DEFAULT_QPM : Z := 120.   (* midi_spec.py:60 *)
(** time_signature: (numerator, denominator). [midi_sequences.py:570-586] *)
Definition time_signature (l : list (sig (Z * Z))) (t : Q) : Z * Z :=
  sig_at l (DEFAULT_PPQ, DEFAULT_QPM) (4, 4) (4, 4) t.

(** midi_sequences.py:417-439 slice_time_signatures with sort_first, 441-461
    slice_key_signatures with sort_first. *)
Definition slice_time {A} (l : list (sig A)) (upper : option Q) : list (sig A) :=
  filter (fun s => match upper with Some u => negb (Qltb u (g_time s)) | None => true end) (py_sort sig_ltb l).
(** midi_sequences.py:417-439 *)
Definition slice_key {A} (l : list (sig A)) (upper : option Q) : list (sig A) :=
  filter (fun s => match upper with Some u => negb (Qltb u (g_time s)) | None => true end)
         (py_sort (fun a b => Qltb (g_time a) (g_time b)) l).
(** midi_sequences.py:463-483 slice_tempo_signature: the sorted copy is not used; a bound of 0.0
    is treated as no bound; the comparison with the method initial_tempo is never equal. *)
Definition slice_tempo {A} (l : list (sig A)) (upper : option Q) : list (sig A) :=
  filter (fun s => match upper with Some u => negb (negb (Qeq_bool u 0) && Qltb u (g_time s)) | None => true end) l.

(** midi_sequences.py:309-324 initial_tempo, cached per object and never cleared: the object is
    the tempo list and the cached answer. *)
Definition first_qpm (l : list (sig Q)) : Q :=
  match l with
  | [] => inject_Z DEFAULT_PPQ
  | z :: _ => match find (fun s => Qeq_bool (g_time s) 0) l with Some s => g_data s | None => g_data z end
  end.
(** midi_sequences.py:309-324 *)
Inductive it_op : Type := ItAdd (t qpm : Q) | ItAsk.
(** midi_sequences.py:309-324 *)
Definition it_step (st : list (sig Q) * option Q) (o : it_op) : option Q * (list (sig Q) * option Q) :=
  let '(l, c) := st in
  match o with
  | ItAdd t q => (None, (snd (sig_add l t q), c))
  | ItAsk => match c with Some v => (Some v, st) | None => (Some (first_qpm l), (l, Some (first_qpm l))) end
  end.
(** midi_sequences.py:309-324 *)
Fixpoint it_run (st : list (sig Q) * option Q) (ops : list it_op) : list (option Q) * (list (sig Q) * option Q) :=
  match ops with
  | [] => ([], st)
  | o :: r => let '(a, st1) := it_step st o in let '(l, st2) := it_run st1 r in (a :: l, st2)
  end.

(** midi_sequences.py:557-567 is_sorted, with the keys already computed. *)
Fixpoint is_sorted (l : list Q) : bool :=
  match l with a :: ((b :: _) as r) => if Qltb b a then false else is_sorted r | _ => true end.

(** ** Tracks *)
(** midi_sequences.py:113, 131-139, 163: the track table (a SortedDict) and _track_to_idx. *)
Record mseqs : Type := mkMS { m_tracks : sdict Z seq; m_idx : list (Z * Z); m_res : Z }.
(** midi_sequences.py:113, 131-139, 163 *)
Definition trk (s : mseqs) (k : Z) : option seq := od_get Z seq Z.eqb (od (m_tracks s)) k.
(** midi_sequences.py:113, 131-139, 163 *)
Definition reg (s : mseqs) (k : Z) : option Z := od_get Z Z Z.eqb (m_idx s) k.
(** midi_sequences.py:113, 131-139, 163 *)
Definition ms_empty (resolution : Z) : mseqs := mkMS sd_empty [] resolution.
(** midi_sequences.py:113, 131-139, 163 *)
Definition put_track (s : mseqs) (k : Z) (q : seq) : mseqs :=
  mkMS (snd (sd_set Z seq Z.ltb Z.eqb (m_tracks s) k q)) (m_idx s) (m_res s).
(** midi_sequences.py:113, 131-139, 163 *)
Definition put_reg (s : mseqs) (k j : Z) : mseqs := mkMS (m_tracks s) (od_set Z Z Z.eqb (m_idx s) k j) (m_res s).

(** midi_sequences.py:190-228 __getitem__. *)
Definition ms_getitem (s : mseqs) (i : Z) : res seq * mseqs :=
  if (i <? 0) || (128 <=? i) then (Err ValueError, s)
  else match reg s i with
       | Some j => match trk s j with Some q => (Ok q, s) | None => (Err KeyError, s) end
       | None =>
         let j := Z.of_nat (sd_len (m_tracks s)) in
         let q := q_new [] (mkI i "Instrument 0" false) (m_res s) in
         (Ok q, put_track (put_reg s i j) j q)
       end.
(** midi_sequences.py:230-252 __setitem__; a list of notes goes through from_notes
    (midi_sequence.py:706-718). *)
Definition ms_setitem (s : mseqs) (i : Z) (q : seq) : res unit * mseqs :=
  if (i <? 0) || (128 <=? i) then (Err ValueError, s) else (Ok tt, put_track s i q).
(** midi_sequences.py:230-252, midi_sequence.py:706-718 *)
Definition q_from_notes (l : list note) : seq := q_adjust (q_set_notes (q_new [] generic 220) l).
(** midi_sequences.py:230-252, midi_sequence.py:706-718 *)
Definition ms_setitem_notes (s : mseqs) (i : Z) (l : list note) : res unit * mseqs :=
  ms_setitem s i (q_from_notes l).
(** midi_sequences.py:698-746 create_track (name and is_drum of the declared types). *)
Definition ms_create (s : mseqs) (i program : Z) (name : string) (drum : bool) : res Z * mseqs :=
  if negb ((0 <=? program) && (program <? 128)) then (Err ValueError, s)
  else match reg s i with
       | Some j => (Ok j, s)
       | None =>
         match i_new instrument_families program name drum with
         | Err e => (Err e, s)
         | Ok ins => (Ok i, put_reg (put_track s i (q_new [] ins (m_res s))) i i)
         end
       end.
(** midi_sequences.py:748-771 get_track. *)
Definition ms_get_track (s : mseqs) (i : Z) (name : string) (program : Z) (drum : bool) : res seq * mseqs :=
  if (i <? 0) || (128 <=? i) then (Err ValueError, s)
  else
    let '(r, s1) := match trk s i with
                    | Some _ => (Ok 0, s)
                    | None => ms_create s i program name drum
                    end in
    match r with
    | Err e => (Err e, s1)
    | Ok _ => match trk s1 i with Some q => (Ok q, s1) | None => (Err KeyError, s1) end
    end.
(** midi_sequences.py:773-779 set_sequence with a MidiNoteSequence. *)
Definition ms_set_sequence (s : mseqs) (i : Z) (q : seq) : mseqs := put_track s i q.

(** midi_sequences.py:773-779 *)
Inductive ms_op : Type :=
| MsGet (i : Z) | MsSet (i : Z) (q : seq) | MsSetNotes (i : Z) (l : list note)
| MsCreate (i program : Z) (name : string) (drum : bool)
| MsGetTrack (i : Z) (name : string) (program : Z) (drum : bool)
| MsSetSequence (i : Z) (q : seq)
| MsMutate (k : Z) (o : q_op).
(** [MsMutate k o]: a call on the sequence stored under [k]. [midi_sequences.py:190-250] *)
Definition ms_mutate (s : mseqs) (k : Z) (o : q_op) : mseqs :=
  match trk s k with
  | None => s
  | Some q => mkMS (mkSD (map (fun p => if fst p =? k then (fst p, snd (q_do q o)) else p) (od (m_tracks s)))
                         (sd_keys (m_tracks s))) (m_idx s) (m_res s)
  end.
(** midi_sequences.py:190-250 *)
Definition ms_do (s : mseqs) (o : ms_op) : mseqs :=
  match o with
  | MsGet i => snd (ms_getitem s i)
  | MsSet i q => snd (ms_setitem s i q)
  | MsSetNotes i l => snd (ms_setitem_notes s i l)
  | MsCreate i p n d => snd (ms_create s i p n d)
  | MsGetTrack i n p d => snd (ms_get_track s i n p d)
  | MsSetSequence i q => ms_set_sequence s i q
  | MsMutate k o => ms_mutate s k o
  end.
(** midi_sequences.py:190-250 *)
Definition ms_run (s : mseqs) (ops : list ms_op) : mseqs := fold_left ms_do ops s.

(** midi_sequences.py:650-671 _add_midi_note_sequence for one sequence. *)
Definition ms_add_seq (s : mseqs) (q : seq) : res mseqs :=
  let k := i_num (q_instr q) in
  match reg s k with
  | Some j =>
    match trk s j with
    | None => Err KeyError
    | Some q0 => match q_merge q0 q with
                 | (Err e, _) => Err e
                 | (Ok _, q1) => Ok (put_track s j q1)   (* merged in place *)
                 end
    end
  | None => Ok (put_reg (put_track s k q) k k)
  end.
(** [midi_sequences.py:650-677] *)
Fixpoint ms_add_all (s : mseqs) (l : list seq) : res mseqs :=
  match l with [] => Ok s | q :: r => bind (ms_add_seq s q) (fun s1 => ms_add_all s1 r) end.
(** midi_sequences.py:131-139: MidiNoteSequences(midi_seq=l). *)
Definition ms_of_list (resolution : Z) (l : list seq) : res mseqs := ms_add_all (ms_empty resolution) l.

(** midi_sequences.py:485-489 is_quantized: [n.is_quantized] is the method, not its result. *)
Definition ms_is_quantized (s : mseqs) : bool := forallb (fun _ => true) (od (m_tracks s)).

(** The tracks in key order. [midi_sequences.py:254-265] *)
Definition ms_values (s : mseqs) : list seq :=
  flat_map (fun k => match trk s k with Some q => [q] | None => [] end) (sd_keys (m_tracks s)).
(** midi_sequences.py:491-505 get_all_sequence_events. *)
Definition ms_events (s : mseqs) : list note := py_sort start_lt (flat_map q_notes (ms_values s)).
(** midi_sequences.py:507-515 trim: the slices are not stored. *)
Fixpoint trim_loop (l : list seq) (initial event : Q) : res unit :=
  match l with
  | [] => Ok tt
  | q :: r => bind (q_slice q initial event false) (fun _ => trim_loop r initial event)
  end.
(** midi_sequences.py:507-515 *)
Definition ms_trim (s : mseqs) (event initial : Q) : res unit * mseqs := (trim_loop (ms_values s) initial event, s).
(** midi_sequences.py:537-542. *)
Fixpoint last_within (l : list note) (bound : Q) (acc : option Q) : option Q :=
  match l with
  | [] => acc
  | n :: r => if Qle_bool (n_end n) bound then last_within r bound (Some (n_end n)) else acc
  end.
(** midi_sequences.py:517-548 truncate; 545-546 iterate the integer keys. *)
Definition ms_truncate (s : mseqs) (initial : Q) (from_start : option Q) : res (option Q) * mseqs :=
  match from_start with
  | Some f =>
    if Qltb f 0 then (Err ValueError, s)
    else match last_within (ms_events s) f None with
         | None => (Ok None, s)
         | Some t => match sd_keys (m_tracks s) with [] => (Ok (Some t), s) | _ => (Err AttributeError, s) end
         end
  | None =>
    match ms_events s with
    | [] => (Err ValueError, s)
    | l => let t := max_end l in
           match ms_trim s initial t with                (* 534: arguments swapped *)
           | (Err e, s1) => (Err e, s1)
           | (Ok _, s1) => (Ok (Some t), s1)
           end
    end
  end.
