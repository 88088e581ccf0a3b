(** Model of MidiNoteSequence.to_midi_file and of the default callback, midi/callbacks.py.
    Simplifications: the file is the list of tracks that is written, the path is not modelled;
    pretty_midi.PrettyMIDI.write is taken as CustomPrettyMIDI.serialize into a new file, which is a copy of it
    (channels without 9, the drum channel); a sequence always has notes (not None) and an instrument. *)
From Verif Require Import PyBase M_Note M_Events M_Seq M_Ticks M_Load M_Meta M_Song.
Open Scope Z_scope.

(** midi/callbacks.py:35-53: a new object with an empty instrument and the one asked for. *)
Definition callback_song (p : pm) (i : instr) (notes : list note) : song :=
  mkSong p (mkMeta [] [] [])
    [mkSI "" 0 false [] [] [];
     mkSI (i_name i) (i_num i) (i_drum i) (map (fun n => mkSN (n_velocity n) (n_pitch n) (n_start n) (n_end n)) notes) [] []].
(** midi/callbacks.py:12-54 save_midi_callback with the default tempo (120) and resolution (220). *)
Definition save_midi_callback (i : option instr) (notes : list note) (total_time : Q) : res (list ftrack) :=
  match notes with
  | [] => Err ValueError
  | _ => match i with
         | None => Err ValueError
         | Some i => bind (pm_new 220 120) (fun p => serialize 9 (callback_song p i notes) [])
         end
  end.
(** midi_sequence.py:788-801 to_midi_file; the result is what the callback does. *)
Definition to_midi_file {A} (q : seq) (callback : option (option instr -> list note -> Q -> res A)) : res A :=
  match callback with
  | None => Err ValueError
  | Some f => f (Some (q_instr q)) (py_sort (fun a b => Qltb (n_start a) (n_start b)) (q_notes q)) (q_total q)
  end.
