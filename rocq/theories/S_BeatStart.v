(** Specification for estimate_beat_start. *)
From Coq Require Import Qround.
From Verif Require Import PyBase M_Tempi S_Tempi.
Open Scope Q_scope.

(** Milliseconds covered by the window around a beat: [tol] to both sides, cut at 0. *)
Definition in_window (tol b : Q) (ms : Z) : bool :=
  if Qltb b tol then (0 <=? ms)%Z && (ms <? Qfloor (1000 * (b + tol)))%Z
  else (Qfloor (1000 * (b - tol)) <=? ms)%Z && (ms <? Qfloor (1000 * (b - tol)) + Qfloor (2000 * tol))%Z.
(** Loudness near time 0 and the beats, per beat. *)
Definition loudness (tol : Q) (notes : list bnote) (beats : list Q) : Q :=
  total (map bn_vel (filter (fun a => existsb (fun b => in_window tol b (Qfloor (1000 * bn_start a))) (0 :: beats)) notes))
  / inject_Z (Z.of_nat (List.length beats)).
