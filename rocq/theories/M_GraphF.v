(** Model of build_sequence and build of neural_graph_composer/midi_graph_builder.py in double precision: the
    parts of M_Graph that compute with floats (grouping by start, rescaling of velocities), with every operation
    rounded.  The automatic tolerance that numpy's percentile returns for a sequence is an argument [tolf], any
    numbers >= 0.  Products of velocities stay within 64 bits. *)
From Coq Require Import Qround.
From Verif Require Import PyBase M_Note M_Events M_Seq M_Ticks M_Chord M_Graph M_Float M_Snap.
Open Scope Z_scope.

(** midi_graph_builder.py:637 np.clip(x, 0, 127).astype(np.int32): what is clipped is not negative. *)
Definition clip_f (x : Q) : Z := Qfloor (if Qltb x 0 then 0 else if Qltb 127 x then 127 else x).
(** midi_graph_builder.py:600-639 rescale_velocities with the default targets 32 and 127. *)
Definition rescale_f (v : list Z) : res (list Z) :=
  match v with
  | [] => Err ValueError
  | [x] => Ok [clip 32 127 (round_half_even (fl (fl (inject_Z (x * 95) / 127) + 32)))]
  | _ =>
    let mn := lmin v in
    let d := lmax v - mn in
    if d <=? 0 then Ok (map (fun _ => clip 0 127 32) v)
    else Ok (map (fun x => clip_f (fl (fl (inject_Z ((x - mn) * 95) / inject_Z d) + 32))) v)
  end.
(** midi_graph_builder.py:1004-1071: one subgroup of the chord [notes]. *)
Definition visit_f (e : env) (c : config) (notes : list note) (st : builder * digraph * option Z) (chunk : list Z)
  : res unit * (builder * digraph * option Z) :=
  let '(b, g, last) := st in
  let vel := if c_velocity c
             then bind (rescale_f (map (top_velocity notes) chunk)) (fun v => Ok (Some v))
             else Ok None in
  match vel with
  | Err x => (Err x, st)
  | Ok v =>
    let h := e_shash e chunk in
    let b1 := register b h chunk in
    match create_tensor (c_type c) chunk v (c_size c) 127 with
    | Err x => (Err x, (b1, g, last))
    | Ok x => (Ok tt, (b1, place g last h x (frozenset e (map n_pitch notes)), Some h))
    end
  end.
(** midi_graph_builder.py:983-1071: one sorted key. *)
Definition visit_group_f (e : env) (c : config) (st : builder * digraph * option Z) (notes : list note)
  : res unit * (builder * digraph * option Z) :=
  each (visit_f e c notes) st (split_chord e (c_size c) notes).
(** midi_graph_builder.py:847-1077 build_sequence for arguments of the declared types. *)
Definition build_sequence_f (e : env) (tolf : seq -> Q) (b : builder) (s : seq) (c : config) (g : option digraph) : res digraph * builder :=
  if (c_size c <=? 0) || (128 <? c_size c) then (Err ValueError, b)
  else if c_buckets c <=? 0 then (Err ValueError, b)
  else if Qltb (c_tolerance c) 0 || Qltb 1 (c_tolerance c) then (Err ValueError, b)
  else match compute_data_f e s (tolf s) (c_filter c) with
  | Err x => (Err x, b)
  | Ok ([], _) => (Ok (match g with Some g => g | None => g_empty end), b)
  | Ok (data, _) =>
    let start :=
      match g with
      | None => Ok (g_empty, None)
      | Some g0 => match rev (g_nodes g0) with
                   | [] => Err IndexError
                   | (h, _) :: _ => Ok (g0, Some h)
                   end
      end in
    match start with
    | Err x => (Err x, b)
    | Ok (g0, last) =>
      match each (visit_group_f e c) (b, g0, last) (in_key_order data) with
      | (Err x, (b', _, _)) => (Err x, b')
      | (Ok _, (b', g', _)) => (Ok g', b')
      end
    end
  end.
(** midi_graph_builder.py:470-577, 565 *)
Fixpoint build_tracks_f (e : env) (tolf : seq -> Q) (conv : digraph -> option exn) (c : config) (per_instrument : bool)
         (b : builder) (large : option digraph) (l : list seq) : res (option digraph) * builder :=
  match l with
  | [] => (Ok large, b)
  | s :: r =>
    if i_drum (q_instr s) then build_tracks_f e tolf conv c per_instrument b large r
    else if Nat.eqb (List.length (q_notes s)) 1 then build_tracks_f e tolf conv c per_instrument b large r
    else match build_sequence_f e tolf b s c (if per_instrument then None else large) with
    | (Err x, b1) => (Err x, b1)
    | (Ok g, b1) =>
      match g_nodes g with
      | [] => build_tracks_f e tolf conv c per_instrument b1 large r
      | _ =>
        if per_instrument then
          match conv g with
          | Some x => (Err x, b1)
          | None => build_tracks_f e tolf conv c per_instrument (keep_graph b1 g) large r
          end
        else build_tracks_f e tolf conv c per_instrument b1 (Some g) r
      end
    end
  end.
(** midi_graph_builder.py:470-577 build on the tracks of a multi-track object. *)
Definition build_f (e : env) (tolf : seq -> Q) (conv : digraph -> option exn) (b : builder) (l : list seq) (c : config) (per_instrument : bool) : res unit * builder :=
  match build_tracks_f e tolf conv c per_instrument b None l with
  | (Err x, b1) => (Err x, b1)
  | (Ok None, b1) => (Ok tt, b1)
  | (Ok (Some g), b1) => match conv g with Some x => (Err x, b1) | None => (Ok tt, keep_graph b1 g) end
  end.
