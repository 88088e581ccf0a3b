(** Model of saving and loading a whole piece: CustomPrettyMIDI.serialize and from_file,
    custom_pretty_midi.py:74-127, 1278-1448, with every event in seconds on the side of the piece.
    Simplifications: exact rationals instead of floats (M_Ticks); pretty_midi's key_name_to_key_number is
    the argument [keynum]; mido's checks of message fields are those of its documentation, the float
    logarithm in the check of a denominator taken exact.  When several events of a piece are refused, which
    exception comes first is not modelled. *)
From Verif Require Import PyBase M_SortedDict M_Note M_Ticks M_Load M_Write M_Meta.
Open Scope Z_scope.

(** ** A piece *)
(** pretty_midi.Note, in seconds. [custom_pretty_midi.py:1400-1407] *)
Record snote : Type := mkSN { sn_vel : Z; sn_pitch : Z; sn_start : Q; sn_end : Q }.
(** pretty_midi.Instrument; pitch bends (time, pitch), control changes (time, number, value).
    [custom_pretty_midi.py:1386-1421] *)
Record sinst : Type := mkSI { si_name : string; si_prog : Z; si_drum : bool;
  si_notes : list snote; si_bends : list (Q * Z); si_ccs : list (Q * Z * Z) }.
(** The attributes of a CustomPrettyMIDI: ticks and tempo, signatures and lyrics, instruments.
    [custom_pretty_midi.py:54-71] *)
Record song : Type := mkSong { sg_pm : pm; sg_meta : metadata; sg_insts : list sinst }.

(** ** A mido.MidiFile *)
(** A message of a file: meta events of the timing track, or events of instruments. [custom_pretty_midi.py:84-95] *)
Inductive fmsg : Type := FMeta (m : meta) | FMsg (m : msg).
(** custom_pretty_midi.py:84-95 *)
Definition ftrack : Type := list (Z * fmsg).
(** custom_pretty_midi.py:91-95: ticks made absolute. *)
Fixpoint f_abs (tick : Z) (l : ftrack) : ftrack :=
  match l with [] => [] | (d, m) :: r => (d + tick, m) :: f_abs (d + tick) r end.
(** custom_pretty_midi.py:1443-1448: ticks made relative. *)
Fixpoint f_delta (tick : Z) (l : ftrack) : ftrack :=
  match l with [] => [] | (t, m) :: r => (t - tick, m) :: f_delta (tick + (t - tick)) r end.
(** What _load_tempo_changes and _load_metadata see of a message, and what _load_instruments sees.
    [custom_pretty_midi.py:160, 217-232, 404-458] *)
Definition as_meta (m : fmsg) : meta := match m with FMeta m => m | FMsg _ => M_Meta.MOther end.
(** custom_pretty_midi.py:404-458 *)
Definition as_msg (m : fmsg) : msg := match m with FMeta _ => M_Load.MOther | FMsg m => m end.
(** A track with its messages seen so. [custom_pretty_midi.py:84-95] *)
Definition view {A B} (f : A -> B) (l : list (Z * A)) : list (Z * B) := map (fun e => (fst e, f (snd e))) l.

(** ** Saving *)
(** mido's checks: set_tempo. [custom_pretty_midi.py:1347-1349] *)
Definition tempo_fits (us : Z) : bool := (0 <=? us) && (us <=? 16777215).
(** mido's checks: time_signature; the denominator is a power of two. [custom_pretty_midi.py:1353-1356] *)
Definition signature_fits (n d : Z) : bool :=
  (0 <=? n) && (n <=? 255) && (1 <=? d) && (d <=? 2 ^ 255) && (2 ^ Z.log2 d =? d).
(** custom_pretty_midi.py:1360-1364 key_number_to_mido_key_name *)
Definition key_names : list string :=
  ["C"; "Db"; "D"; "Eb"; "E"; "F"; "F#"; "G"; "Ab"; "A"; "Bb"; "B";
   "Cm"; "C#m"; "Dm"; "D#m"; "Em"; "Fm"; "F#m"; "Gm"; "G#m"; "Am"; "Bbm"; "Bm"]%string.
(** custom_pretty_midi.py:1332-1334: add_ts. *)
Definition needs_default (l : list (Z * Z * Q)) : bool :=
  match l with [] => true | x :: r => Qltb 0 (fold_left Qminb (map snd r) (snd x)) end.
(** custom_pretty_midi.py:1346-1349 *)
Definition tempo_messages (p : pm) : res (list (Z * meta)) :=
  mapM (fun e => if tempo_fits (snd e) then Ok (fst e, MTempo (snd e)) else Err ValueError) (write_tempo (p_res p) (p_scales p)).
(** custom_pretty_midi.py:1352-1356 *)
Definition signature_messages (p : pm) (l : list (Z * Z * Q)) : res (list (Z * meta)) :=
  mapM (fun x => bind (time_to_tick p (snd x)) (fun k =>
    if signature_fits (fst (fst x)) (snd (fst x)) then Ok (k, MTime (fst (fst x)) (snd (fst x))) else Err ValueError)) l.
(** custom_pretty_midi.py:1365-1368 *)
Definition key_messages (p : pm) (l : list (Z * Q)) : res (list (Z * meta)) :=
  mapM (fun x => bind (time_to_tick p (snd x)) (fun k => bind (py_nth key_names (fst x)) (fun s => Ok (k, MKey s)))) l.
(** custom_pretty_midi.py:1370-1373 *)
Definition lyric_messages (p : pm) (l : list (string * Q)) : res (list (Z * meta)) :=
  mapM (fun x => bind (time_to_tick p (snd x)) (fun k => Ok (k, MLyric (fst x)))) l.
(** custom_pretty_midi.py:1299-1304 secondary_sort on the events of the timing track. *)
Definition meta_rank (m : meta) : option Z :=
  match m with
  | MTempo _ => Some (1 * 256 * 256)
  | MTime _ _ => Some (2 * 256 * 256)
  | MKey _ => Some (3 * 256 * 256)
  | MLyric _ => Some (4 * 256 * 256)
  | M_Meta.MOther => None
  end.
(** custom_pretty_midi.py:1314-1320 event_compare; cmp_to_key. *)
Definition meta_lt (a b : Z * meta) : bool :=
  match (if fst a =? fst b then match meta_rank (snd a), meta_rank (snd b) with Some x, Some y => Some (x - y) | _, _ => None end else None) with
  | Some d => d <? 0
  | None => fst a - fst b <? 0
  end.
(** custom_pretty_midi.py:1328-1380: track 0, absolute ticks; track[-1] of an empty list raises IndexError. *)
Definition timing_track (sg : song) : res ftrack :=
  let p := sg_pm sg in let d := sg_meta sg in
  bind (tempo_messages p) (fun tempi =>
  bind (signature_messages p (md_times d)) (fun sigs =>
  bind (key_messages p (md_keys d)) (fun keys =>
  bind (lyric_messages p (md_lyrics d)) (fun lyrics =>
    let evs := py_sort meta_lt ((if needs_default (md_times d) then [(0, MTime 4 4)] else []) ++ tempi ++ sigs ++ keys ++ lyrics) in
    match rev evs with
    | [] => Err IndexError
    | e :: _ => Ok (view FMeta evs ++ [(fst e + 1, FMsg MEnd)])
    end)))).
(** custom_pretty_midi.py:1400-1421: the events of an instrument with their ticks. *)
Definition to_ticks (p : pm) (i : sinst) : res winst :=
  bind (mapM (fun n => bind (time_to_tick p (sn_start n)) (fun s => bind (time_to_tick p (sn_end n)) (fun e =>
          Ok (mkP (sn_vel n) (sn_pitch n) s e)))) (si_notes i)) (fun ns =>
  bind (mapM (fun b => bind (time_to_tick p (fst b)) (fun k => Ok (k, snd b))) (si_bends i)) (fun bs =>
  bind (mapM (fun c => bind (time_to_tick p (fst (fst c))) (fun k => Ok (k, snd (fst c), snd c))) (si_ccs i)) (fun cs =>
    Ok (mkW (si_name i) (si_prog i) (si_drum i) ns bs cs)))).
(** mido's checks of program_change, note_on, pitchwheel and control_change. [custom_pretty_midi.py:1395-1421] *)
Definition byte7 (v : Z) : bool := (0 <=? v) && (v <=? 127).
(** custom_pretty_midi.py:1395-1421 *)
Definition messages_fit (i : winst) : bool :=
  byte7 (w_prog i) &&
  forallb (fun n => byte7 (pn_pitch n) && byte7 (pn_vel n)) (w_notes i) &&
  forallb (fun b => (-8192 <=? snd b) && (snd b <=? 8191)) (w_bends i) &&
  forallb (fun c => byte7 (snd (fst c)) && byte7 (snd c)) (w_ccs i).
(** custom_pretty_midi.py:1278-1448 serialize.  [file] are the tracks of the mido_file argument ([] for a
    new one); all tracks of the result, those too, are made relative. *)
Definition serialize (dc : Z) (sg : song) (file : list ftrack) : res (list ftrack) :=
  bind (timing_track sg) (fun t0 =>
  if (0 <=? dc) && (dc <? 16) then
    bind (mapM (to_ticks (sg_pm sg)) (sg_insts sg)) (fun ws =>
    if forallb messages_fit ws
    then Ok (map (f_delta 0) (file ++ t0 :: map (view FMsg) (write_insts dc 0 ws)))
    else Err ValueError)
  else Err ValueError).

(** ** Loading *)
(** custom_pretty_midi.py:267-342, 436-450: the times of ticks put into an instrument. *)
Definition to_seconds (p : pm) (s : lstate) (i : pinst) : res sinst :=
  let c := match nth_error (l_cells s) (pi_cell i) with Some c => c | None => mkC [] [] end in
  bind (mapM (fun n => bind (py_nth (p_times p) (pn_start n)) (fun a => bind (py_nth (p_times p) (pn_end n)) (fun b =>
          Ok (mkSN (pn_vel n) (pn_pitch n) a b)))) (pi_notes i)) (fun ns =>
  bind (mapM (fun b => bind (py_nth (p_times p) (fst b)) (fun t => Ok (t, snd b))) (c_bends c)) (fun bs =>
  bind (mapM (fun x => bind (py_nth (p_times p) (fst (fst x))) (fun t => Ok (t, snd (fst x), snd x))) (c_ccs c)) (fun cs =>
    Ok (mkSI (pi_name i) (pi_prog i) (pi_drum i) ns bs cs)))).
(** custom_pretty_midi.py:74-127 from_file of a mido.MidiFile with [resolution] ticks per beat. *)
Definition load_song (keynum : string -> res Z) (dc resolution : Z) (file : list ftrack) : res song :=
  bind (from_file keynum resolution (map (view as_meta) file)) (fun pd =>
    let s := load_file dc (map (view as_msg) file) in
    bind (mapM (fun e => to_seconds (fst pd) s (snd e)) (l_insts s)) (fun is => Ok (mkSong (fst pd) (snd pd) is))).
(** The MidiFile object after from_file: its messages have absolute times. [custom_pretty_midi.py:90-95] *)
Definition file_after_load (file : list ftrack) : list ftrack := map (f_abs 0) file.
