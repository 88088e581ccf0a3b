(** Beats and downbeats in double precision (custom_pretty_midi.py get_beats, get_downbeats). *)
From Coq Require Import Sorted Permutation Lia Lqa Qabs Qround.
From Verif Require Import PyBase M_Float M_Beats M_BeatsF S_Beats S_Snap S_BeatsF L_BeatsF L_BeatsF2 L_BeatsF3 L_BeatsF4 L_BeatsF5 L_BeatsF6.
Open Scope Q_scope.

(** C215: whatever the tempo map and the signatures, the beats begin with the requested time and
    lie before the end; no beat when the start is not before the end. *)
Theorem C215_start : forall m sigs others start l, m <> [] -> beats_f_are m sigs others start l ->
  (forall x, In x l -> x < piece_end m (sort_sigs sigs) others) /\
  (start < piece_end m (sort_sigs sigs) others -> exists r, l = start :: r) /\
  (piece_end m (sort_sigs sigs) others <= start -> l = []).
Proof. exact beats_f_start. Qed.
Print Assumptions C215_start.

(** C215: whatever the tempo map, every signature change inside the piece is a beat, to the bit. *)
Theorem C215_changes : forall m sigs others start l, m <> [] -> wide sigs -> beats_f_are m sigs others start l ->
  forall s, In s sigs -> start < ts_time s -> ts_time s < piece_end m (sort_sigs sigs) others -> In (ts_time s) l.
Proof. exact beats_f_changes. Qed.
Print Assumptions C215_changes.

(** C215: with one tempo the beats never go back. *)
Theorem C215_order : forall t0 q sigs others start l, 0 < q -> meters sigs -> wide sigs -> is_double start -> (forall s, In s sigs -> is_double (ts_time s)) ->
  beats_f_are [(t0, q)] sigs others start l -> StronglySorted Qle l.
Proof. exact f_order. Qed.
Print Assumptions C215_order.

(** C215: with one tempo a beat lasts one beat of the signature in force up to a relative error of
    2^-48, unless the next signature change comes first or is within tolerance of it. *)
Theorem C215_period : forall t0 q sigs others start l x y, 0 < q -> meters sigs -> wide sigs -> is_double start -> (forall s, In s sigs -> is_double (ts_time s)) ->
  beats_f_are [(t0, q)] sigs others start l -> consecutive l x y -> forall s k, in_force sigs s x -> beats_per_quarter s k ->
  let P := 60 / (k * q) in
  Qabs (y - (x + P)) <= (Qabs x + P) / inject_Z (2 ^ 48) \/
  (exists s', In s' sigs /\ y = ts_time s' /\ x < ts_time s' /\ (forall s'', In s'' sigs -> x < ts_time s'' -> ts_time s' <= ts_time s'') /\
     ts_time s' <= x + P + (Qabs x + P) / inject_Z (2 ^ 48) + (2 # 100000000) + (2 # 100000) * Qabs (ts_time s')).
Proof. exact f_period. Qed.
Print Assumptions C215_period.

(** C215: with one tempo and no signature the beats are the start, start + p, (start + p) + p, ...
    rounded at each step, p being 60 / tempo rounded, up to the first that reaches the end. *)
Theorem C215_plain : forall t0 q others start l, let step := fun x => fl (x + fl (60 / q)) in let stop := piece_end [(t0, q)] [] others in
  beats_f_are [(t0, q)] [] others start l <->
  exists n, l = map (fun k => Nat.iter k step start) (List.seq 0 n) /\ (forall k, (k < n)%nat -> Nat.iter k step start < stop) /\ stop <= Nat.iter n step start.
Proof. exact f_plain. Qed.
Print Assumptions C215_plain.

(** C215: the k-th of them is off by k roundings at most. *)
Theorem C215_drift : forall t0 q others start l, 0 < q -> 0 <= start -> beats_f_are [(t0, q)] [] others start l ->
  forall k b, nth_error l k = Some b ->
  Qabs (b - (start + inject_Z (Z.of_nat k) * (60 / q))) <= inject_Z (Z.of_nat k) * (piece_end [(t0, q)] [] others + 60 / q) / inject_Z (2 ^ 48).
Proof. exact f_drift. Qed.
Print Assumptions C215_drift.

(** C215: the number of beats is that of exact arithmetic, or differs by one (both happen, below). *)
Theorem C215_count : forall t0 q others start l, 0 < q -> 0 <= start -> let stop := piece_end [(t0, q)] [] others in
  start < stop -> stop * q <= inject_Z (2 ^ 24) -> beats_f_are [(t0, q)] [] others start l ->
  let N := Qceiling ((stop - start) * q / 60) in (N - 1 <= Z.of_nat (List.length l) <= N + 1)%Z.
Proof. exact f_count. Qed.
Print Assumptions C215_count.

(** C215: nothing is lost when start and period are multiples of one power of two and the end has at
    most 53 bits of it: the beats are those of exact arithmetic. *)
Theorem C215_exact : forall t0 q others start e a b, start == inject_Z a * 2 ^ e -> 60 / q == inject_Z b * 2 ^ e -> (0 <= a)%Z -> (0 < b)%Z ->
  piece_end [(t0, q)] [] others + 60 / q <= inject_Z (2 ^ 53) * 2 ^ e ->
  forall fuel, exists o o', get_beats_f fuel [(t0, q)] [] others start = Ok o /\ get_beats fuel [(t0, q)] [] others start = Ok o' /\
    match o, o' with Some l, Some l' => Forall2 Qeq l l' | None, None => True | _, _ => False end.
Proof. exact f_exact. Qed.
Print Assumptions C215_exact.

(** C215: with one tempo the call returns and the beats strictly increase, as long as start and end
    are below 2^50 shortest beats. *)
Theorem C215_returns : forall t0 q sigs others start P, 0 < q -> meters sigs -> wide sigs -> is_double start -> (forall s, In s sigs -> is_double (ts_time s)) -> 0 < P ->
  (forall s k, In s sigs -> beats_per_quarter s k -> P <= 60 / (k * q)) -> (sigs = [] -> P <= 60 / q) ->
  Qabs start + Qabs (piece_end [(t0, q)] (sort_sigs sigs) others) <= inject_Z (2 ^ 50) * P ->
  exists l, beats_f_are [(t0, q)] sigs others start l /\ StronglySorted Qlt l.
Proof. exact f_returns. Qed.
Print Assumptions C215_returns.

(** C215: beyond that it need not: when one beat after the start rounds to the start, the loop
    never ends. *)
Theorem C215_absorbed : forall t0 q others start, start < piece_end [(t0, q)] [] others -> fl (start + fl (60 / q)) == start ->
  forall fuel, get_beats_f fuel [(t0, q)] [] others start = Ok None.
Proof. exact f_absorbed. Qed.
Print Assumptions C215_absorbed.

(** C215: downbeats are beats, from the start on. *)
Theorem C215_downbeats : forall m sigs others start l, meters sigs -> beats_f_are m sigs others start l ->
  exists d, downbeats_f_are m sigs others start d /\ forall x, In x d -> In x l /\ start <= x.
Proof. exact f_downbeats. Qed.
Print Assumptions C215_downbeats.

(** C215: with one tempo, downbeats are exactly the beats that start a bar. *)
Theorem C215_bars : forall t0 q sigs others start l d per n, 0 < q -> meters sigs -> wide sigs -> is_double start -> (forall s, In s sigs -> is_double (ts_time s)) ->
  (forall s, In s sigs -> start < ts_time s -> (2 # 100000000) + (2 # 100000) * Qabs (ts_time s) < ts_time s - start) ->
  (forall s, In s sigs -> ts_time s < piece_end [(t0, q)] (sort_sigs sigs) others) ->
  (forall num, (0 < num)%Z -> beats_per_bar num (per num)) ->
  (forall s, in_force sigs s start -> ts_time s <= start -> n = per (ts_num s)) -> ((forall s, In s sigs -> start < ts_time s) -> n = 4%nat) ->
  beats_f_are [(t0, q)] sigs others start l -> StronglySorted Qlt l -> downbeats_f_are [(t0, q)] sigs others start d -> d = bars per sigs n 0 l.
Proof. exact f_bars. Qed.
Print Assumptions C215_bars.

(** C215_count is sharp: 100 quarters a minute for exactly 6 seconds are ten beats (0, 0.6, ..., 5.4);
    in doubles the eleventh lands just before second 6.  And 150 quarters a minute up to the double
    above 0.4 s are two beats exactly, one in doubles. *)
Example C215_case_extra : (exists l, get_beats_f 12 [(0, 100)] [] [6] 0 = Ok (Some l) /\ List.length l = 11%nat) /\
  (exists l, get_beats 12 [(0, 100)] [] [6] 0 = Ok (Some l) /\ List.length l = 10%nat).
Proof. split; eexists; (split; [vm_compute; reflexivity|reflexivity]). Qed.
Example C215_case_fewer : exists e, e = fl (4 # 10) /\ (exists l, get_beats_f 4 [(0, 150)] [] [e] 0 = Ok (Some l) /\ List.length l = 1%nat) /\
  (exists l, get_beats 4 [(0, 150)] [] [e] 0 = Ok (Some l) /\ List.length l = 2%nat).
Proof. eexists. split; [reflexivity|]. split; eexists; (split; [vm_compute; reflexivity|reflexivity]). Qed.

(** 100 quarters a minute; 6/8 from second 0, 3/4 from second 4, until second 8. *)
Definition bf_sigs : list tsig := [mkTS 3 4 4; mkTS 6 8 0].
Example C215_case : wide bf_sigs /\ meters bf_sigs /\ (forall s, In s bf_sigs -> is_double (ts_time s)) /\
  exists l d, get_beats_f 20 [(0, 100)] bf_sigs [8] 0 = Ok (Some l) /\ get_downbeats_f 20 [(0, 100)] bf_sigs [8] 0 = Ok (Some d) /\
    List.length l = 12%nat /\ nth 5 l 0 = 4 /\ ~ nth 4 l 0 == 36 # 10 /\ d = [0; nth 2 l 0; nth 4 l 0; 4; nth 8 l 0; nth 11 l 0].
Proof.
  split; [|split; [|split]].
  - repeat constructor; vm_compute; reflexivity.
  - intros s [<-|[<-|[]]]; cbn; lia.
  - intros s [<-|[<-|[]]]; vm_compute; reflexivity.
  - eexists. eexists. split; [vm_compute; reflexivity|]. split; [vm_compute; reflexivity|]. split; [reflexivity|]. split; [reflexivity|]. split; [vm_compute; discriminate|reflexivity].
Qed.
(** ... and C215_returns applies to it, with beats of at least 0.6 s. *)
Example C215_case_returns : exists l, beats_f_are [(0, 100)] bf_sigs [8] 0 l /\ StronglySorted Qlt l.
Proof.
  destruct C215_case as [W [M [D _]]]. apply (C215_returns 0 100 bf_sigs [8] 0 (6 # 10)); auto; try reflexivity; [|discriminate|vm_compute; discriminate].
  intros s k [<-|[<-|[]]] [K1 [K2 K3]]; cbn [ts_num ts_den] in *.
  - rewrite K2; [vm_compute; discriminate|cbn; auto|intros [_ N]; auto].
  - rewrite K1; [vm_compute; discriminate|cbn; auto|split; [exists 2%Z; reflexivity|discriminate]].
Qed.
(** Start at 2^53 seconds, 120 quarters a minute: half a second is lost in rounding. *)
Example C215_case_absorbed : forall fuel, get_beats_f fuel [(0, 120)] [] [9007199254740994] 9007199254740992 = Ok None.
Proof. apply C215_absorbed; vm_compute; reflexivity. Qed.
