(** Model of reading a MIDI file into a multi-track object, midi_reader.py:115-139, 226-318: the object is
    loaded (M_Song) and handed to the reader (M_Reader).
    Simplifications: mido's parsing of bytes is not modelled: [file] are the tracks mido gives, [resolution]
    its ticks per beat; a mido.MidiFile object (midi_reader.py:215-223) is saved to a temporary file and
    parsed again, which is taken to give the same tracks. *)
From Verif Require Import PyBase M_SortedDict M_Note M_Events M_Seq M_Seqs M_Ticks M_Load M_Meta M_Song M_Reader.
Open Scope Z_scope.

(** The attributes of a pretty_midi.Instrument that the reader looks at. [midi_reader.py:142-212] *)
Definition reader_inst (i : sinst) : rinst :=
  mkRI (si_prog i) (si_drum i) (si_name i)
    (map (fun n => mkRN (sn_vel n) (sn_pitch n) (sn_start n) (sn_end n)) (si_notes i))
    (map (fun b => (snd b, fst b)) (si_bends i))
    (map (fun c => (snd (fst c), snd c, fst (fst c))) (si_ccs i)).
(** ... and those of the CustomPrettyMIDI object. [midi_reader.py:61-113, 245-263] *)
Definition reader_file (sg : M_Song.song) (tempi : list (Q * Q)) : mfile :=
  mkMF (p_res (sg_pm sg)) (md_keys (sg_meta sg)) tempi (md_times (sg_meta sg)) (map reader_inst (sg_insts sg)).
(** midi_reader.py:115-139, 226-318 read. *)
Definition read_file (keynum : string -> res Z) (dc resolution : Z) (file : list ftrack) : res M_Reader.song :=
  bind (load_song keynum dc resolution file) (fun sg =>
  bind (fst (get_tempo_changes (sg_pm sg))) (fun tempi => M_Reader.read (reader_file sg tempi))).
