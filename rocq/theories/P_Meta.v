(** Properties C147, C148: loading the tempo map and the metadata of a file. *)
From Verif Require Import PyBase M_Ticks S_Ticks M_Meta S_Meta L_Meta.
From Coq Require Import Sorted.
Open Scope Z_scope.

(** C147: loading a well-formed file of at most 10^9 ticks gives one entry per key signature, time
    signature and lyric of the first track, in file order, each at the duration of the ticks before it
    under the tempo events of that track; so each list is in order of time.  The other tracks only
    matter through the last tick. *)
Theorem C147_loaded : forall keynum r t0 rest last, 0 < r -> file_ok (t0 :: rest) -> ~ In [] (t0 :: rest) ->
  is_last_tick (t0 :: rest) last -> last < MAX_TICK -> Forall (fun e => signature_ok keynum (snd e)) t0 ->
  exists p d, from_file keynum r (t0 :: rest) = Ok (p, d) /\
    (forall k, 0 <= k < MAX_TICK -> exists t, fst (tick_to_time p k) = Ok t /\ (t == seconds r t0 k)%Q) /\
    Forall2 (fun a b => keynum (snd a) = Ok (fst b) /\ (snd b == seconds r t0 (fst a))%Q) (keys_in (events_of t0)) (md_keys d) /\
    Forall2 (fun a b => snd a = fst b /\ (snd b == seconds r t0 (fst a))%Q) (times_in (events_of t0)) (md_times d) /\
    Forall2 (fun a b => snd a = fst b /\ (snd b == seconds r t0 (fst a))%Q) (lyrics_in (events_of t0)) (md_lyrics d) /\
    StronglySorted (fun a b => (snd a <= snd b)%Q) (md_keys d) /\ StronglySorted (fun a b => (snd a <= snd b)%Q) (md_times d) /\
    StronglySorted (fun a b => (snd a <= snd b)%Q) (md_lyrics d).
Proof. exact loaded_full. Qed.
Print Assumptions C147_loaded.

(** C148: a file is rejected with IndexError if it has no track, and with ValueError if any track is
    empty, the last tick is 10^9 or more, or a signature of the first track is not acceptable; by C147
    there is no other failure. *)
Theorem C148_rejected : forall keynum r tracks, 0 < r -> file_ok tracks -> (forall s e, keynum s = Err e -> e = ValueError) ->
  (tracks = [] -> from_file keynum r tracks = Err IndexError) /\
  (tracks <> [] -> In [] tracks -> from_file keynum r tracks = Err ValueError) /\
  (forall last, ~ In [] tracks -> is_last_tick tracks last -> MAX_TICK <= last -> from_file keynum r tracks = Err ValueError) /\
  (forall t0 rest last, tracks = t0 :: rest -> ~ In [] tracks -> is_last_tick tracks last -> last < MAX_TICK ->
     Exists (fun e => ~ signature_ok keynum (snd e)) t0 -> from_file keynum r tracks = Err ValueError).
Proof. exact rejected. Qed.
Print Assumptions C148_rejected.

(** 4 ticks per quarter, 60 bpm from the start, 120 bpm from tick 4: a key change at tick 6 is at 1.25 s. *)
Definition t147 : list (Z * meta) := [(0, MTempo 1000000); (0, MTime 3 4); (4, MTempo 500000); (2, MKey "G"%string); (0, MLyric "la"%string)].
Definition k147 (s : string) : res Z := if String.eqb s "G"%string then Ok 7 else Err ValueError.
Example C147_case : file_ok [t147; [(7, MKey "X"%string)]] /\ is_last_tick [t147; [(7, MKey "X"%string)]] 7 /\
  Forall (fun e => signature_ok k147 (snd e)) t147 /\
  (exists p d, from_file k147 4 [t147; [(7, MKey "X"%string)]] = Ok (p, d) /\ map fst (md_keys d) = [7] /\ map fst (md_times d) = [(3, 4)] /\
     Forall (fun x => (snd x == 5 # 4)%Q) (md_keys d) /\ map fst (md_lyrics d) = ["la"%string]) /\
  from_file k147 4 [[(0, MKey "X"%string)]] = Err ValueError /\ from_file k147 4 [t147; []] = Err ValueError.
Proof.
  split; [|split; [|split; [|split]]].
  - split.
    + intros t e [<-|[<-|[]]] H; cbn in H; repeat (destruct H as [<-|H]; [cbn; discriminate|]); tauto.
    + intros t0 r d us E H. inversion E; subst. cbn in H. repeat (destruct H as [H|H]; [inversion H; subst; reflexivity|]). tauto.
  - split.
    + exists [(7, MKey "X"%string)], (7, MKey "X"%string). split; [right; left; auto|]. split; [left; auto|reflexivity].
    + intros t e [<-|[<-|[]]] H; cbn in H; repeat (destruct H as [<-|H]; [cbn; discriminate|]); tauto.
  - repeat constructor. exists 7. split; [reflexivity|]. split; [discriminate|reflexivity].
  - do 2 eexists. split; [vm_compute; reflexivity|]. split; [reflexivity|]. split; [reflexivity|]. split; [|reflexivity]. constructor; [reflexivity|constructor].
  - split; vm_compute; reflexivity.
Qed.
