(** Model of the note/controller part of neural_graph_composer/custom_pretty_midi.py: loading the
    tracks of a MIDI file into instruments.
    Simplifications: notes and controllers carry ticks; the code stores tick_times[tick] in their
    place (see M_Ticks for that table).  Meta events without effect here are [MOther].  The base
    class constructor (not in the repository) is not modelled. *)
From Verif Require Import PyBase.
Open Scope Z_scope.

(** mido messages (type and the fields read by the loader). [custom_pretty_midi.py:344-464] *)
Inductive msg : Type :=
| MName (s : string)
| MProg (ch program : Z)
| MOn (ch note velocity : Z)
| MOff (ch note : Z)
| MBend (ch pitch : Z)
| MCC (ch control value : Z)
| MEnd
| MOther.
(** custom_pretty_midi.py:344-464 *)
Definition event : Type := Z * msg.      (* (time, message) *)

(** custom_pretty_midi.py:91-95: relative to absolute ticks. *)
Fixpoint to_abs (tick : Z) (l : list event) : list event :=
  match l with [] => [] | (d, m) :: r => (d + tick, m) :: to_abs (d + tick) r end.
(** custom_pretty_midi.py:1444-1448 (serialize): absolute to relative ticks. *)
Fixpoint to_delta (tick : Z) (l : list event) : list event :=
  match l with [] => [] | (t, m) :: r => (t - tick, m) :: to_delta (tick + (t - tick)) r end.

(** pretty_midi.Note: velocity, pitch, start, end. [custom_pretty_midi.py:267-342] *)
Record pnote : Type := mkP { pn_vel : Z; pn_pitch : Z; pn_start : Z; pn_end : Z }.
(** The two controller lists of an Instrument: pitch bends (time, pitch) and control changes
    (time, number, value).  They are Python lists that several Instruments may share, so they
    live in cells. [custom_pretty_midi.py:366-396] *)
Record cell : Type := mkC { c_bends : list (Z * Z); c_ccs : list (Z * Z * Z) }.
(** pretty_midi.Instrument. [custom_pretty_midi.py:366-396] *)
Record pinst : Type := mkPI { pi_prog : Z; pi_drum : bool; pi_name : string; pi_notes : list pnote; pi_cell : nat }.

(** Keys (program, channel, track) and (channel, track). [custom_pretty_midi.py:366-396] *)
Definition ikey : Type := (Z * Z * Z)%type.
(** custom_pretty_midi.py:366-396 *)
Definition ikey_eqb (a b : ikey) : bool :=
  let '(p1, c1, t1) := a in let '(p2, c2, t2) := b in (p1 =? p2) && (c1 =? c2) && (t1 =? t2).
(** custom_pretty_midi.py:366-396 *)
Definition pair_eqb (a b : Z * Z) : bool := (fst a =? fst b) && (snd a =? snd b).
(** custom_pretty_midi.py:366-396 *)
Definition assoc {K V} (eqb : K -> K -> bool) (k : K) (l : list (K * V)) : option V :=
  match find (fun e => eqb (fst e) k) l with Some e => Some (snd e) | None => None end.

(** custom_pretty_midi.py:359-364: instrument_map, stragglers, track_name_map, and the cells. *)
Record lstate : Type := mkL {
  l_insts : list (ikey * pinst);
  l_strag : list ((Z * Z) * nat);
  l_cells : list cell;
  l_names : list (Z * string) }.
(** custom_pretty_midi.py:359-364 *)
Definition l_empty : lstate := mkL [] [] [] [].

(** custom_pretty_midi.py:359-364 *)
Definition track_name (s : lstate) (tr : Z) : string :=
  match assoc Z.eqb tr (l_names s) with Some n => n | None => EmptyString end.

(** custom_pretty_midi.py:366-402 __get_instrument(program, channel, track, create_new=1):
    makes sure the instrument exists. *)
Definition get_new (drum_channel : Z) (s : lstate) (pr ch tr : Z) : lstate :=
  match assoc ikey_eqb (pr, ch, tr) (l_insts s) with
  | Some _ => s
  | None =>
    match assoc pair_eqb (ch, tr) (l_strag s) with
    | Some c => mkL (l_insts s ++ [((pr, ch, tr), mkPI pr (ch =? drum_channel) (track_name s tr) [] c)])
                    (l_strag s) (l_cells s) (l_names s)
    | None => mkL (l_insts s ++ [((pr, ch, tr), mkPI pr (ch =? drum_channel) (track_name s tr) [] (List.length (l_cells s)))])
                  (l_strag s) (l_cells s ++ [mkC [] []]) (l_names s)
    end
  end.
(** ... with create_new=0: the cell that receives the event. [custom_pretty_midi.py:366-396] *)
Definition get_cell (s : lstate) (pr ch tr : Z) : lstate * nat :=
  match assoc ikey_eqb (pr, ch, tr) (l_insts s) with
  | Some i => (s, pi_cell i)
  | None =>
    match assoc pair_eqb (ch, tr) (l_strag s) with
    | Some c => (s, c)
    | None => (mkL (l_insts s) (l_strag s ++ [((ch, tr), List.length (l_cells s))]) (l_cells s ++ [mkC [] []]) (l_names s),
               List.length (l_cells s))
    end
  end.
(** custom_pretty_midi.py:366-396 *)
Definition upd_nth {A} (l : list A) (n : nat) (f : A -> A) : list A :=
  match nth_error l n with Some x => firstn n l ++ f x :: skipn (S n) l | None => l end.
(** custom_pretty_midi.py:366-396 *)
Definition in_cell (s : lstate) (c : nat) (f : cell -> cell) : lstate :=
  mkL (l_insts s) (l_strag s) (upd_nth (l_cells s) c f) (l_names s).
(** ints.notes.append(note) on the instrument of the key. [custom_pretty_midi.py:267-342] *)
Definition append_note (s : lstate) (k : ikey) (n : pnote) : lstate :=
  mkL (map (fun e => if ikey_eqb (fst e) k
                     then (fst e, mkPI (pi_prog (snd e)) (pi_drum (snd e)) (pi_name (snd e)) (pi_notes (snd e) ++ [n]) (pi_cell (snd e)))
                     else e) (l_insts s))
      (l_strag s) (l_cells s) (l_names s).
(** custom_pretty_midi.py:267-342 *)
Definition emit (drum_channel : Z) (s : lstate) (prog : Z -> Z) (tr ch : Z) (n : pnote) : lstate :=
  append_note (get_new drum_channel s (prog ch) ch tr) (prog ch, ch, tr) n.

(** last_note_on: (channel, note) -> list of (start tick, velocity), in insertion order.
    [custom_pretty_midi.py:404-458] *)
Definition opens : Type := list ((Z * Z) * list (Z * Z)).
(** custom_pretty_midi.py:404-458 *)
Definition op_set (o : opens) (k : Z * Z) (v : list (Z * Z)) : opens :=
  if existsb (fun e => pair_eqb (fst e) k) o
  then map (fun e => if pair_eqb (fst e) k then (fst e, v) else e) o
  else o ++ [(k, v)].
(** custom_pretty_midi.py:404-458 *)
Definition op_del (o : opens) (k : Z * Z) : opens := filter (fun e => negb (pair_eqb (fst e) k)) o.

(** custom_pretty_midi.py:267-288 _finish_notes. *)
Definition finish_one (dc : Z) (prog : Z -> Z) (tr tick : Z) (eos : bool) (s : lstate) (e : (Z * Z) * list (Z * Z)) : lstate :=
  let '((ch, note), v) := e in
  match v with
  | (start, vel) :: _ => if (start <? tick) || eos then emit dc s prog tr ch (mkP vel note start tick) else s
  | [] => s
  end.
(** custom_pretty_midi.py:267-288 *)
Definition finish_kept (tick : Z) (eos : bool) (e : (Z * Z) * list (Z * Z)) : bool :=
  match snd e with (start, _) :: _ => negb ((start <? tick) || eos) | [] => true end.
(** custom_pretty_midi.py:267-288 *)
Definition finish_notes (dc : Z) (prog : Z -> Z) (tr tick : Z) (eos : bool) (s : lstate) (o : opens) : lstate * opens :=
  (fold_left (finish_one dc prog tr tick eos) o s, filter (finish_kept tick eos) o).

(** custom_pretty_midi.py:290-342 _note_off_event. *)
Definition note_off (dc : Z) (prog : Z -> Z) (tr tick ch note : Z) (s : lstate) (o : opens) : lstate * opens :=
  match assoc pair_eqb (ch, note) o with
  | None => (s, o)
  | Some v =>
    let close := filter (fun x => negb (fst x =? tick)) v in
    let keep := filter (fun x => fst x =? tick) v in
    let s' := fold_left (fun s x => emit dc s prog tr ch (mkP (snd x) note (fst x) tick)) close s in
    (s', match keep with [] => op_del o (ch, note) | _ => op_set o (ch, note) keep end)
  end.

(** custom_pretty_midi.py:413-458: one event of track [tr].  mido velocities are 0..127, so a
    note_on whose velocity is not positive has velocity 0. *)
Definition step (dc tr : Z) (st : lstate * opens * (Z -> Z)) (e : event) : lstate * opens * (Z -> Z) :=
  let '(s, o, prog) := st in
  let '(t, m) := e in
  match m with
  | MName n => (mkL (l_insts s) (l_strag s) (l_cells s) ((tr, n) :: l_names s), o, prog)
  | MProg ch p => (s, o, fun c => if c =? ch then p else prog c)
  | MOn ch note vel =>
    if 0 <? vel then
      let '(s', o') := finish_notes dc prog tr t false s o in
      (s', op_set o' (ch, note) (match assoc pair_eqb (ch, note) o' with Some v => v | None => [] end ++ [(t, vel)]), prog)
    else let '(s', o') := note_off dc prog tr t ch note s o in (s', o', prog)
  | MOff ch note => let '(s', o') := note_off dc prog tr t ch note s o in (s', o', prog)
  | MBend ch pitch =>
    let '(s', c) := get_cell s (prog ch) ch tr in
    (in_cell s' c (fun x => mkC (c_bends x ++ [(t, pitch)]) (c_ccs x)), o, prog)
  | MCC ch control value =>
    let '(s', c) := get_cell s (prog ch) ch tr in
    (in_cell s' c (fun x => mkC (c_bends x) (c_ccs x ++ [(t, control, value)])), o, prog)
  | MEnd => let '(s', o') := finish_notes dc prog tr t true s o in (s', o', prog)
  | MOther => st
  end.
(** custom_pretty_midi.py:404-458: one track; 463-464: all tracks. *)
Definition load_track (dc : Z) (s : lstate) (tr : Z) (evs : list event) : lstate :=
  fst (fst (fold_left (step dc tr) evs (s, [], fun _ => 0))).
(** custom_pretty_midi.py:404-458, 463-464 *)
Fixpoint load_tracks (dc : Z) (s : lstate) (tr : Z) (tracks : list (list event)) : lstate :=
  match tracks with [] => s | t :: r => load_tracks dc (load_track dc s tr t) (tr + 1) r end.
(** from_file 90-95 and _load_instruments: [tracks] as stored in the file (relative ticks).
    [custom_pretty_midi.py:90-95, 344-464] *)
Definition load_file (dc : Z) (tracks : list (list event)) : lstate :=
  load_tracks dc l_empty 0 (map (to_abs 0) tracks).

(** Observations: notes and controllers of the instrument of a key. [custom_pretty_midi.py:344-464] *)
Definition inst_of (s : lstate) (k : ikey) : option pinst := assoc ikey_eqb k (l_insts s).
(** custom_pretty_midi.py:344-464 *)
Definition notes_of (s : lstate) (k : ikey) : list pnote := match inst_of s k with Some i => pi_notes i | None => [] end.
(** custom_pretty_midi.py:344-464 *)
Definition ctrl_of (s : lstate) (k : ikey) : option cell :=
  match inst_of s k with Some i => nth_error (l_cells s) (pi_cell i) | None => None end.
