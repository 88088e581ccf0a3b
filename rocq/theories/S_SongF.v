(** Specification for loading and saving a whole piece in double precision. *)
From Verif Require Import PyBase M_Ticks M_Meta M_Song.
Open Scope Z_scope.

(** A file as mido reads it: no negative delta time; the tempi of the first track lie between 256 and
    2^24 - 1 microseconds a beat, the largest a MIDI file can hold. *)
Definition midi_file (file : list ftrack) : Prop :=
  (forall t e, In t file -> In e t -> 0 <= fst e) /\
  (forall t0 rest d us, file = t0 :: rest -> In (d, FMeta (MTempo us)) t0 -> 256 <= us < 2 ^ 24) /\
  (forall t0 rest, file = t0 :: rest -> Z.of_nat (List.length t0) <= 2 ^ 40).
(** The same message after the same delay; a tempo may be one microsecond a beat less. *)
Definition same_message (a b : Z * fmsg) : Prop :=
  fst b = fst a /\
  (snd b = snd a \/ exists us us', snd a = FMeta (MTempo us) /\ snd b = FMeta (MTempo us') /\ us - 1 <= us' <= us).
(** The same outcome: the same exception, or results related by [R]. *)
Definition same_outcome {A B} (R : A -> B -> Prop) (x : res A) (y : res B) : Prop :=
  match x, y with Ok a, Ok b => R a b | Err e, Err e' => e' = e | _, _ => False end.
(** The same message after the same delay, but for the value of a tempo. *)
Definition same_but_tempo (a b : Z * fmsg) : Prop :=
  fst b = fst a /\ (snd b = snd a \/ exists us us', snd a = FMeta (MTempo us) /\ snd b = FMeta (MTempo us')).
(** The signatures, keys and lyrics of a track with their ticks. *)
Definition marks (t : ftrack) : list (Z * fmsg) :=
  filter (fun e => match snd e with FMeta (MTempo _) => false | FMeta _ => true | FMsg _ => false end) (f_abs 0 t).
(** Everything of a track but its tempi, with its ticks. *)
Definition untimed (t : ftrack) : ftrack := filter (fun e => match snd e with FMeta (MTempo _) => false | _ => true end) (f_abs 0 t).
(** The same track but for its tempi: there may be more of them or fewer, elsewhere and others. *)
Definition same_events (t t' : ftrack) : Prop :=
  untimed t' = untimed t /\ fold_right Z.add 0 (map fst t') = fold_right Z.add 0 (map fst t) /\ (t = [] <-> t' = []).
