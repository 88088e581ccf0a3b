(** Specification for reading a MIDI file. *)
From Coq Require Import Sorted Permutation.
From Verif Require Import PyBase M_Note M_Ticks S_Ticks M_Load S_Load M_Meta S_Meta M_Song S_Song M_Pipe.
Open Scope Z_scope.

(** The events of a track with absolute ticks, as seen by the loader of instruments. *)
Definition played (t : ftrack) : list event := view as_msg (f_abs 0 t).
(** The notes that the events of a track denote, with program and channel. *)
Definition denoted (t : ftrack) : list ((Z * Z) * pnote) := track_notes (fun _ => 0) (played t).
(** The notes of one program and channel of the i-th track of a file. *)
Definition part (file : list ftrack) (k : ikey) (l : list pnote) : Prop :=
  exists i t, snd k = Z.of_nat i /\ nth_error file i = Some t /\ l = of_inst (fst (fst k)) (snd (fst k)) (denoted t).
(** The times of the ticks of a file. *)
Definition clock_of (resolution : Z) (file : list ftrack) (k : Z) : Q :=
  match file with [] => 0%Q | t0 :: _ => seconds resolution (view as_meta t0) k end.

(** Values as MIDI has them (a bend to the very bottom excepted). *)
Definition value_ok (m : fmsg) : Prop :=
  match m with
  | FMsg (MProg _ p) => bits7 p
  | FMsg (MOn _ n v) => bits7 n /\ bits7 v
  | FMsg (MBend _ p) => - 2 ^ 13 < p < 2 ^ 13
  | FMsg (MCC _ c v) => bits7 c /\ bits7 v
  | _ => True
  end.
Definition sig_ok (keynum : string -> res Z) (m : fmsg) : Prop :=
  match m with
  | FMeta (MKey s) => exists k, keynum s = Ok k /\ 0 <= k < 24
  | FMeta (MTime n d) => 0 < n <= 255 /\ exists k, 0 <= k <= 7 /\ d = 2 ^ k
  | FMeta (MTempo us) => 0 < us
  | _ => True
  end.
(** A file as mido reads it: tracks that are not empty, no negative time, fewer than 10^9 ticks, values in
    their ranges, proper signatures and tempi in the first track, and no key struck twice at one tick. *)
Definition midi_file (keynum : string -> res Z) (file : list ftrack) : Prop :=
  file <> [] /\ ~ In [] file /\ (forall t e, In t file -> In e t -> 0 <= fst e /\ value_ok (snd e)) /\ short file /\
  (forall t0 rest e, file = t0 :: rest -> In e t0 -> sig_ok keynum (snd e)) /\
  (forall t, In t file -> no_double (played t)).
(** At most [n] instruments play. *)
Definition at_most (n : nat) (file : list ftrack) : Prop :=
  forall ks, NoDup ks -> (forall k, In k ks -> exists a l, part file k (a :: l)) -> (List.length ks <= n)%nat.
(** A note that lasts longer than a billionth of its end time. *)
Definition lasting (clock : Z -> Q) (n : pnote) : Prop :=
  (clock (pn_end n) < 1000000000 * (clock (pn_end n) - clock (pn_start n)))%Q.
(** The tempo (microseconds per quarter) in force at a tick: 500000 until the first tempo event of the first
    track. *)
Definition tempo_of (file : list ftrack) (k : Z) : Z :=
  match file with [] => 500000 | t0 :: _ => at_tick (tempi_in (events_of (view as_meta t0))) k 500000 end.
(** The tempo always lies between [lo] and [hi]. *)
Definition tempo_within (lo hi : Z) (file : list ftrack) : Prop := forall k, 0 <= k -> lo <= tempo_of file k <= hi.
(** A note of a track that stands for a note of the file. *)
Definition note_at (clock : Z -> Q) (a : pnote) (b : note) : Prop :=
  n_pitch b = pn_pitch a /\ n_velocity b = pn_vel a /\ (n_start b == clock (pn_start a))%Q /\ (n_end b == clock (pn_end a))%Q.
