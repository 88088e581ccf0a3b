(** Model of the tempo and metadata part of CustomPrettyMIDI.from_file, custom_pretty_midi.py:74-127, with
    _load_metadata, custom_pretty_midi.py:201-234.  pretty_midi's key_name_to_key_number is the argument
    [keynum]; texts are strings.  Times are exact rationals (simplification, as in M_Ticks). *)
From Verif Require Import PyBase M_Ticks.
Open Scope Z_scope.

(** Events of a mido track that from_file looks at.  custom_pretty_midi.py:160, 217-232 *)
Inductive meta : Type :=
| MTempo (us : Z) | MKey (name : string) | MTime (num den : Z) | MLyric (text : string) | MOther.
(** Ticks made absolute.  custom_pretty_midi.py:90-95 *)
Fixpoint absolute (tick : Z) (l : list (Z * meta)) : list (Z * meta) :=
  match l with [] => [] | (d, m) :: r => (d + tick, m) :: absolute (d + tick) r end.
(** The set_tempo events of a track.  custom_pretty_midi.py:160-161 *)
Fixpoint tempi_of (l : list (Z * meta)) : list (Z * Z) :=
  match l with [] => [] | (t, MTempo us) :: r => (t, us) :: tempi_of r | _ :: r => tempi_of r end.
(** max([...]); ValueError on an empty list.  custom_pretty_midi.py:101-102 *)
Definition py_max (l : list Z) : res Z := match l with [] => Err ValueError | x :: r => Ok (fold_left Z.max r x) end.
(** custom_pretty_midi.py:101-102 *)
Fixpoint each_max (tracks : list (list (Z * meta))) : res (list Z) :=
  match tracks with
  | [] => Ok []
  | t :: r => bind (py_max (map fst t)) (fun m => bind (each_max r) (fun ms => Ok (m :: ms)))
  end.

(** key_signature_changes (key number, time), time_signature_changes (numerator, denominator, time), lyrics
    (text, time).  custom_pretty_midi.py:212-214 *)
Record metadata : Type := mkMeta { md_keys : list (Z * Q); md_times : list (Z * Z * Q); md_lyrics : list (string * Q) }.
(** pretty_midi's TimeSignature and KeySignature check their arguments: positive numerator and
    denominator, key number 0..23, and raise ValueError.  custom_pretty_midi.py:219-230 *)
Definition meta_step (keynum : string -> res Z) (p : pm) (d : metadata) (e : Z * meta) : res metadata :=
  match snd e with
  | MKey s => bind (keynum s) (fun k => bind (py_nth (p_times p) (fst e)) (fun t =>
                if (0 <=? k) && (k <? 24) then Ok (mkMeta (md_keys d ++ [(k, t)]) (md_times d) (md_lyrics d)) else Err ValueError))
  | MTime n m => bind (py_nth (p_times p) (fst e)) (fun t =>
                if (0 <? n) && (0 <? m) then Ok (mkMeta (md_keys d) (md_times d ++ [(n, m, t)]) (md_lyrics d)) else Err ValueError)
  | MLyric s => bind (py_nth (p_times p) (fst e)) (fun t => Ok (mkMeta (md_keys d) (md_times d) (md_lyrics d ++ [(s, t)])))
  | _ => Ok d
  end.
(** custom_pretty_midi.py:201-234 _load_metadata *)
Fixpoint load_metadata (keynum : string -> res Z) (p : pm) (d : metadata) (l : list (Z * meta)) : res metadata :=
  match l with [] => Ok d | e :: r => bind (meta_step keynum p d e) (fun d' => load_metadata keynum p d' r) end.
(** custom_pretty_midi.py:90-115 from_file up to the instruments; no track at all: tracks[0] raises IndexError. *)
Definition from_file (keynum : string -> res Z) (resolution : Z) (tracks : list (list (Z * meta))) : res (pm * metadata) :=
  let abs := map (absolute 0) tracks in
  match abs with
  | [] => Err IndexError
  | t0 :: _ =>
    bind (load_tempo resolution (tempi_of t0)) (fun _ =>
    bind (each_max abs) (fun ms => bind (py_max ms) (fun last =>
    bind (pm_load resolution (tempi_of t0) last) (fun p =>
    bind (load_metadata keynum p (mkMeta [] [] []) t0) (fun d => Ok (p, d))))))
  end.
