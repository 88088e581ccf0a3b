(** Specification for the metadata of a loaded file. *)
From Verif Require Import PyBase M_Meta S_Ticks.
Open Scope Z_scope.

(** The tick of the i-th event of a track: the sum of the delta times up to it. *)
Definition tick_of (track : list (Z * meta)) (i : nat) : Z := fold_right Z.add 0 (map fst (firstn (S i) track)).
(** The events of a track, in file order, with their ticks. *)
Definition events_of (track : list (Z * meta)) : list (Z * meta) :=
  map (fun i => (tick_of track i, snd (nth i track (0, MOther)))) (seq 0 (List.length track)).
(** Its tempo events (tick, microseconds per quarter), key signatures, time signatures and lyrics. *)
Definition tempi_in (l : list (Z * meta)) : list (Z * Z) :=
  flat_map (fun e => match snd e with MTempo us => [(fst e, us)] | _ => [] end) l.
Definition keys_in (l : list (Z * meta)) : list (Z * string) :=
  flat_map (fun e => match snd e with MKey s => [(fst e, s)] | _ => [] end) l.
Definition times_in (l : list (Z * meta)) : list (Z * (Z * Z)) :=
  flat_map (fun e => match snd e with MTime n d => [(fst e, (n, d))] | _ => [] end) l.
Definition lyrics_in (l : list (Z * meta)) : list (Z * string) :=
  flat_map (fun e => match snd e with MLyric s => [(fst e, s)] | _ => [] end) l.
(** A file as MIDI readers give it: no negative delta time, positive tempi in the first track. *)
Definition file_ok (tracks : list (list (Z * meta))) : Prop :=
  (forall t e, In t tracks -> In e t -> 0 <= fst e) /\
  (forall t0 r d us, tracks = t0 :: r -> In (d, MTempo us) t0 -> 0 < us).
(** Signatures that pretty_midi accepts. *)
Definition signature_ok (keynum : string -> res Z) (m : meta) : Prop :=
  match m with
  | MKey s => exists k, keynum s = Ok k /\ 0 <= k < 24
  | MTime n d => 0 < n /\ 0 < d
  | _ => True
  end.
(** The last tick of a file of non-empty tracks. *)
Definition is_last_tick (tracks : list (list (Z * meta))) (k : Z) : Prop :=
  (exists t e, In t tracks /\ In e (events_of t) /\ fst e = k) /\ forall t e, In t tracks -> In e (events_of t) -> fst e <= k.
(** Seconds from the start to a tick of a file with first track [t0]. *)
Definition seconds (resolution : Z) (t0 : list (Z * meta)) (k : Z) : Q := sum_to (tick_length resolution (tempi_in (events_of t0))) k.
