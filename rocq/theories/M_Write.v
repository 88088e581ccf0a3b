(** Model of neural_graph_composer/custom_pretty_midi.py: CustomPrettyMIDI.serialize, the
    instrument tracks and the tempo events.
    Simplifications: notes and controllers carry ticks; the code converts their times with
    time_to_tick (see M_Ticks, which is exact on the times of ticks).  Time and key signatures
    and lyrics of the timing track are not modelled.  Exact rationals instead of floats. *)
From Coq Require Import Qround.
From Verif Require Import PyBase M_Note M_Ticks M_Load.
Open Scope Z_scope.

(** A pretty_midi.Instrument to be written. [custom_pretty_midi.py:1278-1448] *)
Record winst : Type := mkW { w_name : string; w_prog : Z; w_drum : bool;
  w_notes : list pnote; w_bends : list (Z * Z); w_ccs : list (Z * Z * Z) }.

(** custom_pretty_midi.py:1299-1310 secondary_sort; [None] for types not in the table. *)
Definition rank (m : msg) : option Z :=
  match m with
  | MProg _ _ => Some (5 * 256 * 256)
  | MBend _ pitch => Some (6 * 256 * 256 + pitch)
  | MCC _ control value => Some (7 * 256 * 256 + control * 256 + value)
  | MOff _ note => Some (8 * 256 * 256 + note * 256)
  | MOn _ note velocity => Some (9 * 256 * 256 + note * 256 + velocity)
  | MEnd => Some (10 * 256 * 256)
  | MName _ | MOther => None
  end.
(** custom_pretty_midi.py:1314-1320 event_compare. *)
Definition event_compare (a b : event) : Z :=
  match (if fst a =? fst b then match rank (snd a), rank (snd b) with Some x, Some y => Some (x - y) | _, _ => None end else None) with
  | Some d => d
  | None => fst a - fst b
  end.
(** cmp_to_key: a < b iff the comparison is negative. [custom_pretty_midi.py:1287-1330, 1424] *)
Definition event_lt (a b : event) : bool := event_compare a b <? 0.

(** custom_pretty_midi.py:1395-1421: the events of an instrument, in the order they are appended
    (without the track name). *)
Definition inst_events (ch : Z) (i : winst) : list event :=
  (0, MProg ch (w_prog i)) ::
  flat_map (fun n => [(pn_start n, MOn ch (pn_pitch n) (pn_vel n)); (pn_end n, MOn ch (pn_pitch n) 0)]) (w_notes i) ++
  map (fun b => (fst b, MBend ch (snd b))) (w_bends i) ++
  map (fun c => (fst (fst c), MCC ch (snd (fst c)) (snd c))) (w_ccs i).

(** custom_pretty_midi.py:1428-1436: the pass that swaps a note-off behind a note-on of the same
    tick and pitch; it reads the pairs of the list as it was before the pass. *)
Definition swap_here (a b : event) : bool :=
  match snd a, snd b with
  | MOn _ n v, MOn _ k w => (fst a =? fst b) && (n =? k) && negb (v =? 0) && (w =? 0)
  | _, _ => false
  end.
(** custom_pretty_midi.py:1428-1436 *)
Definition set_nth {A} (l : list A) (i : nat) (x : A) : list A := upd_nth l i (fun _ => x).
(** custom_pretty_midi.py:1428-1436 *)
Definition swap_pass (l : list event) : list event :=
  fold_left (fun tr i => match nth_error l i, nth_error l (S i) with
                         | Some a, Some b => if swap_here a b then set_nth (set_nth tr i b) (S i) a else tr
                         | _, _ => tr end) (seq 0 (List.length l - 1)) l.

(** custom_pretty_midi.py:1388-1439: one track, absolute ticks.  The track name is at tick 0, is
    first in the list and, having no rank, is never after any event it is compared with, so that
    it stays first; it is left out of the sort here (with it the comparison is not transitive). *)
Definition write_track (ch : Z) (i : winst) : list event :=
  let l := (if String.eqb (w_name i) EmptyString then [] else [(0, MName (w_name i))]) ++
           swap_pass (py_sort event_lt (inst_events ch i)) in
  l ++ [(fst (last l (0, MEnd)) + 1, MEnd)].

(** custom_pretty_midi.py:1383-1385: channels without the drum channel. *)
Definition channels (dc : Z) : list Z := filter (fun c => negb (c =? dc)) (map Z.of_nat (seq 0 16)).
(** custom_pretty_midi.py:1393. *)
Definition channel_of (dc : Z) (n : nat) (i : winst) : Z :=
  if w_drum i then dc else nth (n mod List.length (channels dc)) (channels dc) 0.
(** custom_pretty_midi.py:1393 *)
Fixpoint write_insts (dc : Z) (n : nat) (l : list winst) : list (list event) :=
  match l with [] => [] | i :: r => write_track (channel_of dc n i) i :: write_insts dc (S n) r end.
(** The whole file: [timing] is the timing track; ticks made relative (1444-1448).  list.remove
    raises ValueError when the drum channel is not one of 0..15. [custom_pretty_midi.py:1278-1448] *)
Definition write_file (dc : Z) (timing : list event) (l : list winst) : res (list (list event)) :=
  if (0 <=? dc) && (dc <? 16) then Ok (map (to_delta 0) (timing :: write_insts dc 0 l)) else Err ValueError.

(** custom_pretty_midi.py:1346-1349: the tempo events of the timing track; int() truncates
    (the value is positive). *)
Definition write_tempo (resolution : Z) (scales : list (Z * Q)) : list (Z * Z) :=
  map (fun ts => (fst ts, Qfloor (60000000 / (60 / (snd ts * inject_Z resolution))))) scales.
