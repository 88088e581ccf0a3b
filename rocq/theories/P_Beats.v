(** Beats and downbeats (custom_pretty_midi.py get_beats, get_downbeats, get_end_time). *)
From Coq Require Import Sorted.
From Verif Require Import PyBase M_Ticks S_Ticks M_Beats S_Beats L_Beats3 L_Beats4 L_Beats5.
Open Scope Q_scope.

(** C121: get_beats returns, and its beats are ordered, start at the requested time and stay
    before the end. *)
Theorem C121_beats : forall m sigs others start, tempo_map m -> meters sigs -> clear_of_tempo m sigs ->
  exists l, beats_are m sigs others start l /\ StronglySorted Qle l /\
    (forall x, In x l -> start <= x < piece_end m (sort_sigs sigs) others) /\
    (start < piece_end m (sort_sigs sigs) others -> exists r, l = start :: r) /\
    (distinct_times sigs -> StronglySorted Qlt l).
Proof. exact C121a. Qed.
Print Assumptions C121_beats.

(** C121: the end of the piece is the latest of all times. *)
Theorem C121_end : forall m sigs others, m <> [] ->
  let e := piece_end m sigs others in
  (In e others \/ (exists s, In s sigs /\ ts_time s = e) \/ (exists c, In c m /\ fst c = e)) /\
  (forall x, In x others -> x <= e) /\ (forall s, In s sigs -> ts_time s <= e) /\ (forall c, In c m -> fst c <= e).
Proof. exact piece_end_spec. Qed.
Print Assumptions C121_end.

(** C121: the tempo map of every loaded file qualifies. *)
Theorem C121_loaded : forall r evs last ops, (0 < r)%Z -> tempo_events evs -> (forall e, In e evs -> (fst e <= last)%Z) -> (0 <= last < MAX_TICK)%Z ->
  exists p m, pm_load r evs last = Ok p /\ fst (get_tempo_changes (pm_run p ops)) = Ok m /\ tempo_map m.
Proof. exact tempo_map_loaded. Qed.
Print Assumptions C121_loaded.

(** C122: between consecutive beats exactly one beat of music is played, whatever tempo changes
    lie in between. *)
Theorem C122_one_beat : forall m sigs others start l x y, tempo_map m -> meters sigs -> clear_of_tempo m sigs ->
  (sigs = [] \/ exists s, sigs = [s] /\ ts_time s <= start) -> beats_are m sigs others start l -> consecutive l x y ->
  (sigs = [] -> quarters m x y == 1) /\ (forall s k, sigs = [s] -> beats_per_quarter s k -> k * quarters m x y == 1).
Proof. exact C122a. Qed.
Print Assumptions C122_one_beat.

(** C123: with one tempo, each beat lasts one beat of the signature in force, unless a signature
    change comes first. *)
Theorem C123_period : forall t0 q sigs others start l x y, 0 < q -> meters sigs -> clear_of_tempo [(t0, q)] sigs -> distinct_times sigs ->
  beats_are [(t0, q)] sigs others start l -> consecutive l x y -> forall s k, in_force sigs s x -> beats_per_quarter s k ->
  y == x + 60 / (k * q) \/
  (exists s', In s' sigs /\ y = ts_time s' /\ x < ts_time s' /\
     (ts_time s' <= x + 60 / (k * q) \/ close (x + 60 / (k * q)) (ts_time s') \/
      exists s0, In s0 sigs /\ x < ts_time s0 /\ close (ts_time s0) (ts_time s'))).
Proof. exact C123a. Qed.
Print Assumptions C123_period.

(** C123: every signature change inside the piece is a beat. *)
Theorem C123_changes : forall m sigs others start l, tempo_map m -> meters sigs -> clear_of_tempo m sigs -> apart sigs -> beats_are m sigs others start l ->
  forall s, In s sigs -> start < ts_time s -> ts_time s < piece_end m (sort_sigs sigs) others -> In (ts_time s) l.
Proof. exact C123b. Qed.
Print Assumptions C123_changes.

(** C124: downbeats are beats, from the start on. *)
Theorem C124_subset : forall m sigs others start l, meters sigs -> beats_are m sigs others start l ->
  exists d, downbeats_are m sigs others start d /\ forall x, In x d -> In x l /\ start <= x.
Proof. exact C124a. Qed.
Print Assumptions C124_subset.

(** C124: downbeats are the beats that start a bar. *)
Theorem C124_bars : forall m sigs others start l d per n, tempo_map m -> meters sigs -> clear_of_tempo m sigs -> apart sigs ->
  (forall s, In s sigs -> start < ts_time s -> ~ close start (ts_time s)) ->
  (forall s, In s sigs -> ts_time s < piece_end m (sort_sigs sigs) others) ->
  (forall num, (0 < num)%Z -> beats_per_bar num (per num)) ->
  (forall s, in_force sigs s start -> ts_time s <= start -> n = per (ts_num s)) -> ((forall s, In s sigs -> start < ts_time s) -> n = 4%nat) ->
  beats_are m sigs others start l -> downbeats_are m sigs others start d -> d = bars per sigs n 0 l.
Proof. exact C124b. Qed.
Print Assumptions C124_bars.

(** 60 then 120 quarters a minute from second 3; a 6/8 bar from second 0, 3/4 from second 4. *)
Definition bt_map : list (Q * Q) := [(0, 60); (3, 120)].
Definition bt_sigs : list tsig := [mkTS 3 4 4; mkTS 6 8 0].
Lemma bt_ok : tempo_map bt_map /\ meters bt_sigs /\ clear_of_tempo bt_map bt_sigs /\ apart bt_sigs.
Proof.
  split; [split; [discriminate|split]|split; [|split]].
  - repeat constructor; vm_compute; discriminate.
  - intros c [<-|[<-|[]]]; reflexivity.
  - intros s [<-|[<-|[]]]; split; reflexivity.
  - intros c s [<-|[<-|[]]] [<-|[<-|[]]] L C; vm_compute in L, C; try discriminate L; apply C; reflexivity.
  - constructor; [|constructor; constructor]. constructor; [|constructor]. split; intro C; vm_compute in C; apply C; reflexivity.
Qed.
Example C121_case : exists l d, get_beats 50 bt_map bt_sigs [6] 0 = Ok (Some l) /\ get_downbeats 50 bt_map bt_sigs [6] 0 = Ok (Some d) /\
  map Qred l = [0; 3 # 2; 3; 15 # 4; 4; 9 # 2; 5; 11 # 2] /\ map Qred d = [0; 3; 4; 11 # 2].
Proof. eexists. eexists. vm_compute. intuition auto. Qed.
(** C122 needs at most one signature: here the change at second 2 cuts short a beat that had
    already passed the tempo change at 2.9; from second 2 on the beats follow the later tempo, and
    only a third of a beat is played until the next one. *)
Example C122_refuted : exists l, get_beats 50 [(0, 40); (29 # 10, 120)] [mkTS 4 4 0; mkTS 4 4 2] [4] 0 = Ok (Some l) /\ map Qred l = [0; 3 # 2; 2; 5 # 2; 3; 7 # 2] /\ quarters [(0, 40); (29 # 10, 120)] 2 (5 # 2) == (1 # 3).
Proof. eexists. split; [vm_compute; reflexivity|]. split; vm_compute; reflexivity. Qed.
(** C124 needs the last signature before the end: a 2/4 signature at the very end re-bars the 3/4
    piece. *)
Example C124_refuted : exists d, get_downbeats 50 [(0, 60)] [mkTS 3 4 0; mkTS 2 4 6] [6] 0 = Ok (Some d) /\ map Qred d = [0; 2; 4].
Proof. eexists. vm_compute. intuition auto. Qed.
