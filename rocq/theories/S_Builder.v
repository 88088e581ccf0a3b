(** Specification for building graphs from multi-track objects. *)
From Verif Require Import PyBase M_SortedDict M_Seq M_Seqs M_Graph.
Open Scope Z_scope.

(** Every track is registered under its own number (made by create_track, get_track, the reader or from a list). *)
Definition all_registered (m : mseqs) : Prop := forall k, trk m k <> None -> reg m k = Some k.
(** No track number is registered (all tracks were assigned). *)
Definition none_registered (m : mseqs) : Prop := forall k, reg m k = None.
(** Track numbers that can be read. *)
Definition in_range (m : mseqs) : Prop := forall k, trk m k <> None -> 0 <= k < 128.
(** The tracks are numbered 0, 1, ..., n - 1. *)
Definition consecutive (m : mseqs) (n : Z) : Prop := forall k, trk m k <> None <-> 0 <= k < n.
(** Calls that assign or change tracks but never register a number. *)
Definition assigns (o : ms_op) : Prop := match o with MsSet _ _ | MsSetNotes _ _ | MsSetSequence _ _ | MsMutate _ _ => True | _ => False end.
(** Calls that make tracks by number, and calls that change tracks. *)
Definition orderly (o : ms_op) : Prop := match o with MsCreate _ _ _ _ | MsGetTrack _ _ _ _ | MsMutate _ _ => True | _ => False end.
(** A name with something before the last dot and [ext] after it. *)
Definition named (name ext : string) : Prop := exists stem, stem <> EmptyString /\ name = (stem ++ "." ++ ext)%string.
