(** Properties C36, C37, C39, C80: ticks, seconds and tempo.
    [pm_load resolution evs last] is the object after loading a file whose first track has the
    tempo events [evs] and whose largest tick is [last]; [pm_run p ops] is it after any calls.
    [sum_to (tick_length resolution evs) k] is the duration of the first [k] ticks. *)
From Coq Require Import Sorted.
From Verif Require Import PyBase M_Ticks S_Ticks L_Ticks.
Open Scope Z_scope.

(** C36: files are loaded iff their largest tick is below 10^9; then, after any calls,
    tick_to_time(k) is the summed duration of the first k ticks, IndexError for k >= 10^9. *)
Theorem C36_loaded : forall r evs last, 0 < r -> tempo_events evs -> 0 <= last ->
  (MAX_TICK <= last -> pm_load r evs last = Err ValueError) /\
  (last < MAX_TICK -> exists p, pm_load r evs last = Ok p /\
     forall ops k, 0 <= k -> let p' := pm_run p ops in
       (MAX_TICK <= k -> tick_to_time p' k = (Err IndexError, p')) /\
       (k < MAX_TICK -> exists t, fst (tick_to_time p' k) = Ok t /\ (t == sum_to (tick_length r evs) k)%Q)).
Proof. exact C36a. Qed.
Print Assumptions C36_loaded.
(** C36: for an object made from scratch with a tempo in beats per minute. *)
Theorem C36_scratch : forall r tempo, 0 < r -> (0 < tempo)%Q -> exists p, pm_new r tempo = Ok p /\
  forall ops k, 0 <= k -> let p' := pm_run p ops in
    (MAX_TICK <= k -> tick_to_time p' k = (Err IndexError, p')) /\
    (k < MAX_TICK -> exists t, fst (tick_to_time p' k) = Ok t /\ (t == inject_Z k * 60 / (tempo * inject_Z r))%Q).
Proof. exact C36b. Qed.
Print Assumptions C36_scratch.
(** C36: those durations strictly increase with the tick. *)
Theorem C36_increasing : forall r evs j k, 0 < r -> tempo_events evs -> 0 <= j < k ->
  (sum_to (tick_length r evs) j < sum_to (tick_length r evs) k)%Q.
Proof. exact C36c. Qed.
Print Assumptions C36_increasing.
(** 4 ticks per quarter; 60 bpm from the start, 120 bpm from tick 4: 1 s + 0.5 s. *)
Definition ev36 : list (Z * Z) := [(0, 1000000); (4, 500000); (6, 500000)].
Example C36_case : tempo_events ev36 /\
  (exists p, pm_load 4 ev36 7 = Ok p /\ exists t, fst (tick_to_time p 8) = Ok t /\ (t == 3 # 2)%Q) /\
  (sum_to (tick_length 4 ev36) 8 == 3 # 2)%Q.
Proof.
  split; [|split; [|vm_compute; reflexivity]].
  - split; [repeat constructor; discriminate|]. intros e H. repeat (destruct H as [<-|H]; [split; [discriminate|reflexivity]|]). destruct H.
  - eexists; split; [vm_compute; reflexivity|]. eexists; split; vm_compute; reflexivity.
Qed.

(** C37: time_to_tick always answers with a tick whose time is nearest to the given time, is
    exact on tick times, and is monotone. *)
Theorem C37_loaded : forall r evs last p ops, 0 < r -> tempo_events evs -> 0 <= last -> pm_load r evs last = Ok p ->
  let p' := pm_run p ops in let time := sum_to (tick_length r evs) in
  (forall t, exists k, time_to_tick p' t = Ok k /\ 0 <= k /\ forall j, 0 <= j -> (Qabsb (t - time k) <= Qabsb (t - time j))%Q) /\
  (forall k t, 0 <= k -> (t == time k)%Q -> time_to_tick p' t = Ok k) /\
  (forall t1 t2 k1 k2, (t1 < t2)%Q -> time_to_tick p' t1 = Ok k1 -> time_to_tick p' t2 = Ok k2 -> k1 <= k2).
Proof. exact C37a. Qed.
Print Assumptions C37_loaded.
(** C37: likewise for an object made from scratch. *)
Theorem C37_scratch : forall r tempo p ops, 0 < r -> (0 < tempo)%Q -> pm_new r tempo = Ok p ->
  let p' := pm_run p ops in let time := fun k => (inject_Z k * 60 / (tempo * inject_Z r))%Q in
  (forall t, exists k, time_to_tick p' t = Ok k /\ 0 <= k /\ forall j, 0 <= j -> (Qabsb (t - time k) <= Qabsb (t - time j))%Q) /\
  (forall k t, 0 <= k -> (t == time k)%Q -> time_to_tick p' t = Ok k) /\
  (forall t1 t2 k1 k2, (t1 < t2)%Q -> time_to_tick p' t1 = Ok k1 -> time_to_tick p' t2 = Ok k2 -> k1 <= k2).
Proof. exact C37b. Qed.
Print Assumptions C37_scratch.
Example C37_case : exists p, pm_load 4 ev36 7 = Ok p /\ time_to_tick p (3 # 2) = Ok 8 /\
  time_to_tick p (11 # 10) = Ok 5 /\ time_to_tick p 10 = Ok 76 /\ time_to_tick p (-1) = Ok 0.
Proof. eexists; split; [vm_compute; reflexivity|]. vm_compute. auto. Qed.

(** C39: the tempo map built on load starts at tick 0, ascends, has no adjacent repeats and at
    every tick holds the scale of the last tempo event at or before it (120 bpm if none). *)
Theorem C39_tempo_map : forall r evs, 0 < r -> tempo_events evs -> exists m, load_tempo r evs = Ok m /\
  (exists s rest, m = (0, s) :: rest) /\ StronglySorted (fun a b => fst a <= fst b) m /\
  (forall l1 a b l2, m = l1 ++ a :: b :: l2 -> ~ (snd a == snd b)%Q) /\
  (forall j, 0 <= j -> (at_tick m j 0 == tick_length r evs j)%Q).
Proof. exact C39a. Qed.
Print Assumptions C39_tempo_map.
Example C39_case : exists m, load_tempo 4 ev36 = Ok m /\ map fst m = [0; 4].
Proof. eexists; split; vm_compute; reflexivity. Qed.

(** C80: get_tempo_changes, after any calls, reports changes ascending in time from time 0, and at
    every tick the last reported change at or before its time is the tempo then in force. *)
Theorem C80_tempo_report : forall r evs last ops, 0 < r -> tempo_events evs -> (forall e, In e evs -> fst e <= last) ->
  0 <= last < MAX_TICK ->
  exists p out, pm_load r evs last = Ok p /\ fst (get_tempo_changes (pm_run p ops)) = Ok out /\
    (exists c o, out = c :: o /\ (fst c == 0)%Q) /\
    StronglySorted (fun a b => (fst a <= fst b)%Q) out /\
    (forall j, 0 <= j -> exists l1 c l2, out = l1 ++ c :: l2 /\ (fst c <= sum_to (tick_length r evs) j)%Q /\
       (forall x, In x l2 -> (sum_to (tick_length r evs) j < fst x)%Q) /\
       (snd c == 60000000 / inject_Z (at_tick evs j 500000%Z))%Q).
Proof. exact tempo_report. Qed.
Print Assumptions C80_tempo_report.
Example C80_case : exists p out, pm_load 4 ev36 7 = Ok p /\ fst (get_tempo_changes p) = Ok out /\
  Forall2 (fun o e => fst o == fst e /\ snd o == snd e)%Q out [(0, 60); (1, 120)]%Q.
Proof. eexists; eexists; split; [vm_compute; reflexivity|]. split; [vm_compute; reflexivity|]. repeat constructor; vm_compute; reflexivity. Qed.
