(** Model of the two from_file constructors: MidiNoteSequences.from_file (midi/midi_sequences.py) and
    MidiReader.from_file (midi_reader.py).
    Simplifications: file_path is a string. *)
From Coq Require Import String.
From Verif Require Import PyBase M_SortedDict M_Note M_Events M_Seq M_Seqs M_Ticks M_Load M_Meta M_Song M_Reader M_Pipe.
Open Scope list_scope.
Open Scope Z_scope.

(** What a reader returns: None, a MidiNoteSequence, a list (None: an item that is not one), a
    MidiNoteSequences, anything else.
    [midi_sequences.py:183-188, abstract_midi_reader.py:11-14] *)
Inductive data_read : Type := RNone | RSeq (q : seq) | RList (l : list (option seq)) | RSeqs (s : M_Reader.song) | ROther.
(** midi_sequences.py:75-91, 128-142 as called by 188: the type of midi_seq is checked; without one there are no tracks (None). *)
Definition seqs_of (d : data_read) : res (option mseqs) :=
  match d with
  | RNone => Ok None
  | RSeq q => bind (ms_of_list DEFAULT_PPQ [q]) (fun m => Ok (Some m))
  | RList l =>
    if forallb (fun o => match o with Some _ => true | None => false end) l
    then bind (ms_of_list DEFAULT_PPQ (flat_map (fun o => match o with Some q => [q] | None => [] end) l)) (fun m => Ok (Some m))
    else Err TypeError
  | RSeqs _ | ROther => Err TypeError
  end.
(** midi_sequences.py:174-188 MidiNoteSequences.from_file; [got] is what reader.read(file_path) does. *)
Definition seqs_from_file (got : res data_read) : res (option mseqs) :=
  match got with Err _ => Err ValueError | Ok d => seqs_of d end.
(** midi_reader.py:448-457 MidiReader.from_file *)
Definition reader_from_file (keynum : string -> res Z) (dc resolution : Z) (file : list ftrack) : res M_Reader.song :=
  match read_file keynum dc resolution file with Ok s => Ok s | Err _ => Err ValueError end.
(** MidiReader as the reader. [midi_sequences.py:184, midi_reader.py:225-318] *)
Definition own_reader (keynum : string -> res Z) (dc resolution : Z) (file : list ftrack) : res data_read :=
  bind (read_file keynum dc resolution file) (fun s => Ok (RSeqs s)).
