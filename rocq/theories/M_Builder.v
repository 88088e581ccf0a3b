(** Model of MidiGraphBuilder as an object: its constructors, and build on a multi-track object, whose loop runs
    over the live list of track numbers while seqs[i] may create tracks.
    Simplifications: exceptions carry their kind only; a boolean is not counted as an integer. *)
From Coq Require Import Ascii.
From Verif Require Import PyBase M_SortedDict M_Note M_Events M_Seq M_Seqs M_Chord M_Graph M_Load M_Song M_Reader M_Pipe.
Open Scope Z_scope.

(** for s in seqs: ... seqs[s] ...: the iterator over SortedDict._keys is at position [i]; a track made by
    seqs[s] is in that list when the iterator goes on.  The three reads seqs[s] of one round return the same
    track: after the first, s is registered.  None: [fuel] rounds do not suffice.
    [midi_graph_builder.py:516-533, midi_sequences.py:190-228, 263-265, sorted_dict.py:65-69] *)
Fixpoint walk (fuel : nat) (e : env) (conv : digraph -> option exn) (c : config) (per : bool)
         (b : builder) (large : option digraph) (ms : mseqs) (i : nat) : option (res (option digraph) * builder * mseqs) :=
  match nth_error (sd_keys (m_tracks ms)) i with
  | None => Some (Ok large, b, ms)
  | Some k =>
    match fuel with
    | O => None
    | S f =>
      match ms_getitem ms k with
      | (Err x, ms1) => Some (Err x, b, ms1)
      | (Ok q, ms1) =>
        match build_tracks e conv c per b large [q] with
        | (Err x, b1) => Some (Err x, b1, ms1)
        | (Ok large1, b1) => walk f e conv c per b1 large1 ms1 (S i)
        end
      end
    end
  end.
(** midi_graph_builder.py:470-577 build on the object itself; the result, the builder and the object afterwards. *)
Definition build_object (fuel : nat) (e : env) (conv : digraph -> option exn) (b : builder) (ms : mseqs) (c : config) (per : bool)
  : option (res unit * builder * mseqs) :=
  match walk fuel e conv c per b None ms 0 with
  | None => None
  | Some (Err x, b1, ms1) => Some (Err x, b1, ms1)
  | Some (Ok None, b1, ms1) => Some (Ok tt, b1, ms1)
  | Some (Ok (Some g), b1, ms1) => Some (match conv g with Some x => (Err x, b1) | None => (Ok tt, keep_graph b1 g) end, ms1)
  end.

(** What is passed as midi_data. [midi_graph_builder.py:76-110] *)
Inductive data_arg : Type := DNone | DSeq (q : seq) | DSeqs (m : mseqs) | DOther.
(** What is passed as feature_size. [midi_graph_builder.py:79, 121-128] *)
Inductive size_arg : Type := SNone | SInt (n : Z) | SOther.
(** A builder: its data, its options and what it has built. [midi_graph_builder.py:115-143] *)
Record bobject : Type := mkObj { ob_data : option mseqs; ob_size : size_arg; ob_per : bool; ob_velocity : bool; ob_tolerance : Q; ob_state : builder }.
(** midi_graph_builder.py:74-143 MidiGraphBuilder(midi_data, is_instrument_graph, feature_size, is_include_velocity,
    tolerance); [tolerance] None: not a number. *)
Definition new_builder (d : data_arg) (per : bool) (size : size_arg) (velocity : bool) (tolerance : option Q) : res bobject :=
  bind (match d with
        | DNone => Ok None
        | DSeq q => bind (ms_of_list DEFAULT_PPQ [q]) (fun m => Ok (Some m))
        | DSeqs m => Ok (Some m)
        | DOther => Err TypeError
        end) (fun data =>
  match tolerance with
  | None => Err ValueError
  | Some t =>
    if Qltb t 0 then Err ValueError
    else if match size with SNone => true | SInt n => (0 <? n) && (n <=? 127) | SOther => false end
    then Ok (mkObj data size per velocity t b_new)
    else Err ValueError
  end).
(** build(midi_seqs, ...) of the object; None for midi_seqs means the data of the constructor.
    [midi_graph_builder.py:470-513] *)
Definition run_build (fuel : nat) (e : env) (conv : digraph -> option exn) (o : bobject) (given : option mseqs) (c : config) (per : bool)
  : option (res unit * builder * option mseqs) :=
  match (match given with Some m => Some m | None => ob_data o end) with
  | None => Some (Err ValueError, ob_state o, None)
  | Some m => match build_object fuel e conv (ob_state o) m c per with Some (r, b, m') => Some (r, b, Some m') | None => None end
  end.
(** midi_graph_builder.py:171-192 from_midi_sequence: the flag of velocities is passed as is_instrument_graph. *)
Definition from_midi_sequence (q : seq) (size : size_arg) (velocity : bool) : res bobject :=
  match q_notes q with
  | [] => Err ValueError
  | _ => bind (ms_of_list DEFAULT_PPQ [q]) (fun m => new_builder (DSeqs m) velocity size false (Some (1 # 5)%Q))
  end.
(** pathlib: the part of a name from its last dot, unless that is its first or last character; [acc] is the
    part from the last dot seen. [midi_graph_builder.py:161] *)
Fixpoint suffix_from (acc : string) (s : string) : string :=
  match s with
  | EmptyString => acc
  | String c r => suffix_from (if Ascii.eqb c "."%char then s else acc) r
  end.
(** midi_graph_builder.py:161 *)
Definition suffix_of (name : string) : string :=
  match name with
  | EmptyString => ""%string
  | String _ r => (let s := suffix_from "" r in if String.eqb s "." then "" else s)%string
  end.
(** midi_graph_builder.py:145-168 from_file; [name] is the name of the file, [tracks] what mido finds in it (None if it is not a
    file). *)
Definition from_file (keynum : string -> res Z) (dc resolution : Z) (name : string) (tracks : option (list ftrack)) (size : size_arg) (velocity : bool) : res bobject :=
  match tracks with
  | None => Err ValueError
  | Some t =>
    if String.eqb (suffix_of name) ".mid" || String.eqb (suffix_of name) ".midi"
    then bind (read_file keynum dc resolution t) (fun so => new_builder (DSeqs (so_ms so)) velocity size false (Some (1 # 5)%Q))
    else Err ValueError
  end.
(** midi_graph_builder.py:210-219 from_midi_sequences *)
Definition from_midi_sequences (m : mseqs) : res bobject := new_builder (DSeqs m) true (SInt 12) false (Some (1 # 5)%Q).
