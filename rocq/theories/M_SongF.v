(** Model of loading and saving a whole piece with the conversions between ticks and seconds and the tempi
    in double precision, custom_pretty_midi.py:74-127, 1278-1448.  Everything else is as in M_Song and
    M_Meta; functions that only look times up in the table (M_Meta.load_metadata, M_Song.to_seconds) are
    used on the table of doubles. *)
From Verif Require Import PyBase M_SortedDict M_Note M_Ticks M_Load M_Write M_Meta M_Song M_Float.
Open Scope Z_scope.

(** ** Saving *)
(** custom_pretty_midi.py:1346-1349 *)
Definition tempo_messages_f (p : pm) : res (list (Z * meta)) :=
  mapM (fun e => if tempo_fits (snd e) then Ok (fst e, MTempo (snd e)) else Err ValueError) (write_tempo_f (p_res p) (p_scales p)).
(** custom_pretty_midi.py:1352-1356 *)
Definition signature_messages_f (p : pm) (l : list (Z * Z * Q)) : res (list (Z * meta)) :=
  mapM (fun x => bind (time_to_tick_f p (snd x)) (fun k =>
    if signature_fits (fst (fst x)) (snd (fst x)) then Ok (k, MTime (fst (fst x)) (snd (fst x))) else Err ValueError)) l.
(** custom_pretty_midi.py:1365-1368 *)
Definition key_messages_f (p : pm) (l : list (Z * Q)) : res (list (Z * meta)) :=
  mapM (fun x => bind (time_to_tick_f p (snd x)) (fun k => bind (py_nth key_names (fst x)) (fun s => Ok (k, MKey s)))) l.
(** custom_pretty_midi.py:1370-1373 *)
Definition lyric_messages_f (p : pm) (l : list (string * Q)) : res (list (Z * meta)) :=
  mapM (fun x => bind (time_to_tick_f p (snd x)) (fun k => Ok (k, MLyric (fst x)))) l.
(** custom_pretty_midi.py:1328-1380 *)
Definition timing_track_f (sg : song) : res ftrack :=
  let p := sg_pm sg in let d := sg_meta sg in
  bind (tempo_messages_f p) (fun tempi =>
  bind (signature_messages_f p (md_times d)) (fun sigs =>
  bind (key_messages_f p (md_keys d)) (fun keys =>
  bind (lyric_messages_f p (md_lyrics d)) (fun lyrics =>
    let evs := py_sort meta_lt ((if needs_default (md_times d) then [(0, MTime 4 4)] else []) ++ tempi ++ sigs ++ keys ++ lyrics) in
    match rev evs with
    | [] => Err IndexError
    | e :: _ => Ok (view FMeta evs ++ [(fst e + 1, FMsg MEnd)])
    end)))).
(** custom_pretty_midi.py:1400-1421 *)
Definition to_ticks_f (p : pm) (i : sinst) : res winst :=
  bind (mapM (fun n => bind (time_to_tick_f p (sn_start n)) (fun s => bind (time_to_tick_f p (sn_end n)) (fun e =>
          Ok (mkP (sn_vel n) (sn_pitch n) s e)))) (si_notes i)) (fun ns =>
  bind (mapM (fun b => bind (time_to_tick_f p (fst b)) (fun k => Ok (k, snd b))) (si_bends i)) (fun bs =>
  bind (mapM (fun c => bind (time_to_tick_f p (fst (fst c))) (fun k => Ok (k, snd (fst c), snd c))) (si_ccs i)) (fun cs =>
    Ok (mkW (si_name i) (si_prog i) (si_drum i) ns bs cs)))).
(** custom_pretty_midi.py:1278-1448 serialize *)
Definition serialize_f (dc : Z) (sg : song) (file : list ftrack) : res (list ftrack) :=
  bind (timing_track_f sg) (fun t0 =>
  if (0 <=? dc) && (dc <? 16) then
    bind (mapM (to_ticks_f (sg_pm sg)) (sg_insts sg)) (fun ws =>
    if forallb messages_fit ws
    then Ok (map (f_delta 0) (file ++ t0 :: map (view FMsg) (write_insts dc 0 ws)))
    else Err ValueError)
  else Err ValueError).

(** ** Loading *)
(** custom_pretty_midi.py:90-115 from_file up to the instruments *)
Definition from_file_f (keynum : string -> res Z) (resolution : Z) (tracks : list (list (Z * meta))) : res (pm * metadata) :=
  let abs := map (absolute 0) tracks in
  match abs with
  | [] => Err IndexError
  | t0 :: _ =>
    bind (load_tempo_f resolution (tempi_of t0)) (fun _ =>
    bind (each_max abs) (fun ms => bind (py_max ms) (fun last =>
    bind (pm_load_f resolution (tempi_of t0) last) (fun p =>
    bind (load_metadata keynum p (mkMeta [] [] []) t0) (fun d => Ok (p, d))))))
  end.
(** custom_pretty_midi.py:74-127 from_file *)
Definition load_song_f (keynum : string -> res Z) (dc resolution : Z) (file : list ftrack) : res song :=
  bind (from_file_f keynum resolution (map (view as_meta) file)) (fun pd =>
    let s := load_file dc (map (view as_msg) file) in
    bind (mapM (fun e => to_seconds (fst pd) s (snd e)) (l_insts s)) (fun is => Ok (mkSong (fst pd) (snd pd) is))).
