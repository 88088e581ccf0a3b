(** Specification vocabulary for beats in double precision. *)
From Coq Require Import QArith Qabs List.
From Verif Require Import PyBase M_Beats M_BeatsF.
Import ListNotations.
Open Scope Q_scope.

(** The call returns the beats [l] (for every sufficient number of loop iterations). *)
Definition beats_f_are (m : list (Q * Q)) (sigs : list tsig) (others : list Q) (start : Q) (l : list Q) : Prop :=
  exists N, forall fuel, (N <= fuel)%nat -> get_beats_f fuel m sigs others start = Ok (Some l).
Definition downbeats_f_are (m : list (Q * Q)) (sigs : list tsig) (others : list Q) (start : Q) (l : list Q) : Prop :=
  exists N, forall fuel, (N <= fuel)%nat -> get_downbeats_f fuel m sigs others start = Ok (Some l).
(** Signature changes further apart than np.isclose tolerates, with some room. *)
Definition wide (sigs : list tsig) : Prop :=
  ForallOrdPairs (fun s s' => (2 # 100000000) + (2 # 100000) * (Qabs (ts_time s) + Qabs (ts_time s')) < Qabs (ts_time s - ts_time s')) sigs.
(** [y] is [x] up to one part in 2^50. *)
Definition about (x y : Q) : Prop := Qabs (y - x) <= Qabs x / inject_Z (2 ^ 50).
