(** Model of MidiReader.to_pretty_midi and write, midi_reader.py:319-446, and of adjust_times of
    custom_pretty_midi.py:1054-1269 on a whole piece.
    Simplifications: exact rationals instead of floats; initial_tempo() is that of an object that has not
    been asked before (M_Seqs models the cache); [fuel] bounds the loop of get_beats (Ok None if it does not
    suffice); [argsort] is numpy's, as in M_Tempi; names of instruments are not modelled by M_Reader. *)
From Verif Require Import PyBase M_Beats M_Adjust M_SortedDict M_Note M_Events M_Seq M_Seqs M_Ticks M_Load M_Write M_Meta M_Song M_Reader M_Pipe M_Tempi.
Open Scope Z_scope.

(** midi_reader.py:359-365: one tempo signature; update_scale appends, update_tick_time replaces the table
    of tick times. [custom_pretty_midi.py:136-140] *)
Definition put_tempo (p : pm) (t qpm : Q) : res pm :=
  bind (scale_of_bpm qpm (p_res p)) (fun s =>
  bind (time_to_tick p t) (fun k => Ok (mkPM (p_res p) (p_scales p ++ [(k, s)]) [0%Q]))).
(** midi_reader.py:359-365 *)
Fixpoint put_tempi (p : pm) (l : list (sig Q)) : res pm :=
  match l with [] => Ok p | s :: r => bind (put_tempo p (g_time s) (g_data s)) (fun p1 => put_tempi p1 r) end.
(** midi_reader.py:341-347: pretty_midi.TimeSignature refuses numbers that are not positive and negative
    times. *)
Definition put_times (l : list (sig (Z * Z))) : res (list (Z * Z * Q)) :=
  mapM (fun s : sig (Z * Z) => if (0 <? fst (g_data s)) && (0 <? snd (g_data s)) && Qle_bool 0 (g_time s)
                 then Ok (g_data s, g_time s) else Err ValueError) l.
(** midi_reader.py:349-356: pretty_midi.KeySignature refuses numbers outside 0..23 and negative times. *)
Definition put_keys (l : list (sig (Z * bool))) : res (list (Z * Q)) :=
  mapM (fun s : sig (Z * bool) => let k := if snd (g_data s) then fst (g_data s) + 12 else fst (g_data s) in
                 if (0 <=? k) && (k <? 24) && Qle_bool 0 (g_time s) then Ok (k, g_time s) else Err ValueError) l.
(** midi_reader.py:338-339, 371-395: an instrument as pretty_midi has it. *)
Definition inst_of (i : rinst) : sinst :=
  mkSI (ri_name i) (ri_prog i) (ri_drum i)
    (map (fun n => mkSN (rn_vel n) (rn_pitch n) (rn_start n) (rn_end n)) (ri_notes i))
    (map (fun b => (snd b, fst b)) (ri_bends i))
    (map (fun c => (snd c, fst (fst c), snd (fst c))) (ri_ccs i)).
(** midi_reader.py:330-395: the object before its times are adjusted. *)
Definition convert_raw (so : M_Reader.song) (to_end : option Q) : res M_Song.song :=
  let r := if m_res (so_ms so) =? 0 then DEFAULT_PPQ else m_res (so_ms so) in
  bind (truncate_to (so_ms so) to_end) (fun t =>
  bind (pm_new r (first_qpm (so_tempos so))) (fun p0 =>
  bind (put_times (slice_time (so_times so) (Some t))) (fun times =>
  bind (put_keys (slice_key (so_keys so) (Some t))) (fun keys =>
  bind (put_tempi p0 (slice_tempo (so_tempos so) (Some t))) (fun p1 =>
  bind (conv_insts (so_ms so) (sd_keys (m_tracks (so_ms so))) t) (fun l =>
    Ok (M_Song.mkSong p1 (mkMeta keys times []) (mkSI "" 0 false [] [] [] :: map inst_of l)))))))).

(** pretty_midi's Instrument.get_end_time. [custom_pretty_midi.py:498] *)
Definition inst_end (i : sinst) : Q :=
  end_time (map sn_end (si_notes i) ++ map fst (si_bends i) ++ map (fun c => fst (fst c)) (si_ccs i)).
(** The times of instruments, key signatures and lyrics. [custom_pretty_midi.py:496-499] *)
Definition other_times (sg : M_Song.song) : list Q :=
  map inst_end (sg_insts sg) ++ map snd (md_keys (sg_meta sg)) ++ map snd (md_lyrics (sg_meta sg)).
(** time_signature_changes as get_beats has them. [custom_pretty_midi.py:596-616] *)
Definition tsigs (d : metadata) : list M_Beats.tsig := map (fun x => mkTS (fst (fst x)) (snd (fst x)) (snd x)) (md_times d).
(** custom_pretty_midi.py:487-505 get_end_time; the table of tick times may grow. *)
Definition song_end (sg : M_Song.song) : res (Q * M_Song.song) :=
  match get_tempo_changes (sg_pm sg) with
  | (Err e, _) => Err e
  | (Ok tempi, p) => Ok (piece_end tempi (tsigs (sg_meta sg)) (other_times sg), M_Song.mkSong p (sg_meta sg) (sg_insts sg))
  end.
(** What adjust_times changes of a piece (M_Adjust). [custom_pretty_midi.py:1084-1195] *)
Definition to_piece (sg : M_Song.song) : piece (Z * Z) Z (Z * Z) Z string :=
  mkPiece (map (fun i => map (fun n => mkAN (sn_start n) (sn_end n) (sn_vel n, sn_pitch n)) (si_notes i)) (sg_insts sg))
    (map (fun i => map (fun b => mkAE (fst b) (snd b)) (si_bends i)) (sg_insts sg))
    (map (fun i => map (fun c => mkAE (fst (fst c)) (snd (fst c), snd c)) (si_ccs i)) (sg_insts sg))
    (map (fun k => mkAE (snd k) (fst k)) (md_keys (sg_meta sg)))
    (map (fun k => mkAE (snd k) (fst k)) (md_lyrics (sg_meta sg)))
    (tsigs (sg_meta sg)) (M_Ticks.p_scales (sg_pm sg)).
(** The instruments with their lists replaced. [custom_pretty_midi.py:1084-1135] *)
Fixpoint put_events (l : list sinst) (ns : list (list (anote (Z * Z)))) (bs : list (list (aevent Z))) (cs : list (list (aevent (Z * Z)))) : list sinst :=
  match l, ns, bs, cs with
  | i :: l', n :: ns', b :: bs', c :: cs' =>
    mkSI (si_name i) (si_prog i) (si_drum i)
      (map (fun a => mkSN (fst (an_data a)) (snd (an_data a)) (an_start a) (an_end a)) n)
      (map (fun a => (ae_time a, ae_data a)) b)
      (map (fun a => (ae_time a, fst (ae_data a), snd (ae_data a))) c) :: put_events l' ns' bs' cs'
  | _, _, _, _ => []
  end.
(** custom_pretty_midi.py:1054-1269 *)
Definition of_piece (sg : M_Song.song) (p : pm) (a : piece (Z * Z) Z (Z * Z) Z string) : M_Song.song :=
  M_Song.mkSong p
    (mkMeta (map (fun e => (ae_data e, ae_time e)) (p_keys a)) (map (fun s => (ts_num s, ts_den s, ts_time s)) (M_Adjust.p_sigs a))
       (map (fun e => (ae_data e, ae_time e)) (p_lyrics a)))
    (put_events (sg_insts sg) (p_notes a) (p_bends a) (p_ccs a)).
(** custom_pretty_midi.py:1206-1207: the time of the nearest tick. *)
Definition snap_to (p : pm) (t : Q) : res Q := bind (time_to_tick p t) (fun k => py_nth (p_times p) k).
(** custom_pretty_midi.py:1054-1269 adjust_times of a piece. *)
Definition adjust_song (fuel : nat) (sg : M_Song.song) (orig new : list Q) : res (option M_Song.song) :=
  match get_tempo_changes (sg_pm sg) with
  | (Err e, _) => Err e
  | (Ok tempi0, p1) =>
    bind (get_downbeats fuel tempi0 (tsigs (sg_meta sg)) (other_times sg) 0) (fun downs =>
    match downs with
    | None => Ok None
    | Some downs =>
      bind (time_map orig new) (fun m =>
      bind (time_to_tick p1 (last_x m)) (fun k =>
      bind (update_table (M_Ticks.p_scales p1) k) (fun tab =>
      let p2 := mkPM (p_res p1) (M_Ticks.p_scales p1) tab in
      bind (mapM (snap_to p2) (map fst m)) (fun _ =>
      let snap := fun x => match snap_to p2 x with Ok v => v | Err _ => 0%Q end in
      match get_tempo_changes p2 with
      | (Err e, _) => Err e
      | (Ok tempi, p3) =>
        match adjust_times (p_res p3) downs snap tempi orig new (to_piece sg) with
        | (Err e, _) => Err e
        | (Ok _, a) =>
          bind (update_table (M_Adjust.p_scales a) (fst (last (M_Adjust.p_scales a) (0, 0%Q)) + 1)) (fun tab' =>
            Ok (Some (of_piece sg (mkPM (p_res p3) (M_Adjust.p_scales a) tab') a)))
        end
      end))))
    end)
  end.
(** numpy's clip. [midi_reader.py:401] *)
Definition clip (lo hi x : Q) : Q := Qminb (Qmaxb x lo) hi.
(** midi_reader.py:397-402: the times are adjusted. *)
Definition convert_fit (fuel : nat) (sg : M_Song.song) (from_start to_end : option Q) : res (option M_Song.song) :=
  match from_start, to_end with
  | None, None => Ok (Some sg)
  | _, _ =>
    bind (song_end sg) (fun x => let (e, sg1) := x in
      let a := match from_start with Some v => v | None => 0%Q end in
      let b := match to_end with Some v => v | None => e end in
      adjust_song fuel sg1 [0%Q; e] [clip 0 e a; clip 0 e b])
  end.
(** midi_reader.py:404-406: the message of logging.debug is built whether it is logged or not. *)
Definition convert_log (argsort : list Q -> list nat) (sg : M_Song.song) : res M_Song.song :=
  bind (song_end sg) (fun x =>
  bind (estimate_tempo argsort (get_onsets (map (fun i => map sn_start (si_notes i)) (sg_insts sg)))) (fun _ => Ok (snd x))).
(** midi_reader.py:319-407 to_pretty_midi. *)
Definition to_pretty_midi (fuel : nat) (argsort : list Q -> list nat) (so : M_Reader.song) (from_start to_end : option Q) : res (option M_Song.song) :=
  bind (convert_raw so to_end) (fun sg =>
  bind (convert_fit fuel sg from_start to_end) (fun o =>
  match o with
  | None => Ok None
  | Some sg1 => bind (convert_log argsort sg1) (fun sg2 => Ok (Some sg2))
  end)).
(** midi_reader.py:410-446 write: the tracks of the file, for arguments of the declared types; the drum
    channel is 9. [custom_pretty_midi.py:40] *)
Definition write_file (fuel : nat) (argsort : list Q -> list nat) (so : M_Reader.song) (filename : string) (exists_ : bool)
           (from_start to_end : option Q) (overwrite : bool) : res (option (list ftrack)) :=
  bind (M_Reader.write (fun _ => Ok tt) so filename exists_ from_start to_end overwrite) (fun _ =>
  bind (to_pretty_midi fuel argsort so from_start to_end) (fun o =>
  match o with
  | None => Ok None
  | Some sg => bind (serialize 9 sg []) (fun f => Ok (Some f))
  end)).
