(** Model of shifting and stretching notes and sequences in double precision:
    neural_graph_composer/midi/midi_note.py and midi_sequence.py.  Doubles as in M_Float.v; times are doubles, no
    overflow or underflow.  Otherwise as M_Note.v and M_Seq.v. *)
From Verif Require Import PyBase M_Note M_Events M_Seq M_Float.
Open Scope Z_scope.

(** midi_note.py:820-826 shift_time *)
Definition n_shift_f (n : note) (d : Q) : note := with_end (with_start n (fl (n_start n + d))) (fl (n_end n + d)).
(** midi_note.py:828-834 stretch *)
Definition n_stretch_f (n : note) (k : Q) : note := with_end (with_start n (fl (n_start n * k))) (fl (n_end n * k)).
(** midi_sequence.py:416-422 stretch *)
Definition q_stretch_f (s : seq) (k : Q) : seq :=
  q_adjust (q_put s (map (fun n => n_stretch_f n k) (q_notes s))).
(** midi_sequence.py:500-509 shift_times *)
Definition q_shift_f (s : seq) (d : Q) : res unit * seq :=
  if q_is_quantized s then (Err ValueError, s)
  else let s1 := q_put s (map (fun n => n_shift_f n d) (q_notes s)) in
       (Ok tt, q_set_total s1 (fl (q_total s1 + d))).
