(** Specification vocabulary for beats: tempo maps, closeness, musical time. *)
From Coq Require Import Sorted.
From Verif Require Import PyBase M_Beats.
Open Scope Q_scope.

(** A tempo map as get_tempo_changes reports it (C80): non-empty, in time order, positive tempi. *)
Definition tempo_map (m : list (Q * Q)) : Prop :=
  m <> [] /\ StronglySorted (fun a b => fst a <= fst b) m /\ forall c, In c m -> 0 < snd c.
Definition meters (sigs : list tsig) : Prop := forall s, In s sigs -> (0 < ts_num s)%Z /\ (0 < ts_den s)%Z.
(** |a - b| <= 1e-8 + 1e-5 |b| *)
Definition close (a b : Q) : Prop := Qabsb (a - b) <= (1 # 100000000) + (1 # 100000) * Qabsb b.
(** No tempo change lies a tiny bit before a signature change. *)
Definition clear_of_tempo (m : list (Q * Q)) (sigs : list tsig) : Prop :=
  forall c s, In c m -> In s sigs -> fst c < ts_time s -> ~ close (fst c) (ts_time s).
(** Signature changes at different times / not within the tolerance of each other. *)
Definition distinct_times (sigs : list tsig) : Prop := ForallOrdPairs (fun s s' => ~ ts_time s == ts_time s') sigs.
Definition apart (sigs : list tsig) : Prop :=
  ForallOrdPairs (fun s s' => ~ close (ts_time s) (ts_time s') /\ ~ close (ts_time s') (ts_time s)) sigs.

(** The call returns the beats [l] (for every sufficient number of loop iterations). *)
Definition beats_are (m : list (Q * Q)) (sigs : list tsig) (others : list Q) (start : Q) (l : list Q) : Prop :=
  exists N, forall fuel, (N <= fuel)%nat -> get_beats fuel m sigs others start = Ok (Some l).
Definition downbeats_are (m : list (Q * Q)) (sigs : list tsig) (others : list Q) (start : Q) (l : list Q) : Prop :=
  exists N, forall fuel, (N <= fuel)%nat -> get_downbeats fuel m sigs others start = Ok (Some l).

(** [y] follows [x] directly in the list. *)
Definition consecutive (l : list Q) (x y : Q) : Prop := exists l1 l2, l = l1 ++ x :: y :: l2.

(** Quarter notes played between times [a] <= [b]: tempo (per minute) times duration, piece by
    piece; [q] is in force until the first change of [rest]. *)
Fixpoint quarters_from (q : Q) (rest : list (Q * Q)) (a b : Q) : Q :=
  match rest with
  | [] => q * (b - a) / 60
  | (t, q') :: r =>
    if Qle_bool t a then quarters_from q' r a b
    else if Qle_bool b t then q * (b - a) / 60
    else q * (t - a) / 60 + quarters_from q' r t b
  end.
Definition quarters (m : list (Q * Q)) (a b : Q) : Q :=
  match m with [] => 0 | (_, q) :: r => quarters_from q r a b end.

(** Beats per quarter note of a meter, and beats per bar: compound meters (numerator a multiple of
    3 above 3) group three denominator notes into a beat; odd denominators leave the quarter. *)
Definition usual (den : Z) : Prop := In den [1; 2; 4; 8; 16; 32]%Z.
Definition compound (num : Z) : Prop := (exists k, num = 3 * k)%Z /\ num <> 3%Z.
Definition beats_per_quarter (s : tsig) (k : Q) : Prop :=
  (usual (ts_den s) -> compound (ts_num s) -> k == inject_Z (ts_den s) / 12) /\
  (usual (ts_den s) -> ~ compound (ts_num s) -> k == inject_Z (ts_den s) / 4) /\
  (~ usual (ts_den s) -> k == 1).
Definition beats_per_bar (num : Z) (n : nat) : Prop :=
  (compound num -> (3 * Z.of_nat n = num)%Z) /\ (~ compound num -> Z.of_nat n = num).

(** The signature in force at time [x]: the latest one not after [x]; before all of them, the
    earliest. *)
Definition in_force (sigs : list tsig) (s : tsig) (x : Q) : Prop :=
  In s sigs /\
  ((ts_time s <= x /\ forall s', In s' sigs -> ts_time s' <= x -> ts_time s' <= ts_time s) \/
   (forall s', In s' sigs -> x < ts_time s' /\ ts_time s <= ts_time s')).

(** Counting bars: signature changes start a bar, then every n-th beat does; [k] beats are left in
    the current bar of [n] beats.  [per] gives the beats per bar for a numerator. *)
Fixpoint bars (per : Z -> nat) (sigs : list tsig) (n k : nat) (beats : list Q) : list Q :=
  match beats with
  | [] => []
  | x :: r =>
    match find (fun s => Qeq_bool (ts_time s) x) sigs with
    | Some s => x :: bars per sigs (per (ts_num s)) (per (ts_num s) - 1) r
    | None => match k with O => x :: bars per sigs n (n - 1) r | S k' => bars per sigs n k' r end
    end
  end.
