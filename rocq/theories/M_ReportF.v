(** Model of get_tempo_changes (custom_pretty_midi.py:466-485) in double precision, and of the whole
    number of quarters per minute MidiNoteSequences.tempo_signature shows for such a tempo.  As in
    M_Float every operation rounds to the nearest double. *)
From Coq Require Import Qround.
From Verif Require Import PyBase M_Note M_Ticks M_Float.
Open Scope Z_scope.

(** custom_pretty_midi.py:480-484: the loop; tick_to_time may grow the table. *)
Fixpoint tempo_changes_loop_f (p : pm) (l : list (Z * Q)) : res (list (Q * Q)) * pm :=
  match l with
  | [] => (Ok [], p)
  | (tick, sc) :: r =>
    match tick_to_time_f p tick with
    | (Err e, p') => (Err e, p')
    | (Ok t, p') =>
      let d := fl (sc * inject_Z (p_res p')) in
      if Qeq_bool d 0 then (Err ZeroDivisionError, p')
      else match tempo_changes_loop_f p' r with
           | (Ok l', p'') => (Ok ((t, fl (60 / d)) :: l'), p'')
           | (Err e, p'') => (Err e, p'')
           end
    end
  end.
(** custom_pretty_midi.py:466-485 get_tempo_changes: (time, tempo) for each change. *)
Definition get_tempo_changes_f (p : pm) : res (list (Q * Q)) * pm := tempo_changes_loop_f p (p_scales p).
(** int(qpm) of a positive tempo. [midi/midi_sequences.py:602] *)
Definition shown_qpm (qpm : Q) : Z := Qfloor qpm.
