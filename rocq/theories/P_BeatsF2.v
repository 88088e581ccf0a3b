(** Beats across tempo changes in double precision (custom_pretty_midi.py get_beats). *)
From Coq Require Import Sorted Permutation Lia Lqa Qabs Qround.
From Verif Require Import PyBase M_Float M_Beats M_BeatsF S_Beats S_BeatsF S_BeatsF2 L_BeatsF10 L_BeatsF11.
Open Scope Q_scope.

(** C216: over any tempo map the call returns, and the beats strictly increase, as long as the
    roundings cannot eat a quarter of a beat. *)
Theorem C216_returns : forall m sigs others start k lo hi, tempo_map m -> meters sigs -> distinct_times sigs -> settled sigs start k -> beat_lengths m k lo hi ->
  0 < lo -> lo <= hi -> 0 <= start -> slack (piece_end m (sort_sigs sigs) others) lo hi (List.length m - 1) <= 1 # 4 ->
  exists l, beats_f_are m sigs others start l /\ StronglySorted Qlt l.
Proof. exact mf_returns. Qed.
Print Assumptions C216_returns.

(** C216: between consecutive beats one beat of music is played, however many tempo changes lie
    between, up to the slack. *)
Theorem C216_one_beat : forall m sigs others start k lo hi, tempo_map m -> meters sigs -> distinct_times sigs -> settled sigs start k -> beat_lengths m k lo hi ->
  0 < lo -> lo <= hi -> 0 <= start -> let e := slack (piece_end m (sort_sigs sigs) others) lo hi (List.length m - 1) in e <= 1 # 4 ->
  forall l x y, beats_f_are m sigs others start l -> consecutive l x y -> Qabs (k * quarters m x y - 1) <= e /\ x + lo / 2 <= y.
Proof. exact mf_one_beat. Qed.
Print Assumptions C216_one_beat.

(** C216: the j-th beat has j beats of music before it, up to j slacks. *)
Theorem C216_drift : forall m sigs others start k lo hi, tempo_map m -> meters sigs -> distinct_times sigs -> settled sigs start k -> beat_lengths m k lo hi ->
  0 < lo -> lo <= hi -> 0 <= start -> let e := slack (piece_end m (sort_sigs sigs) others) lo hi (List.length m - 1) in e <= 1 # 4 ->
  forall l j b, beats_f_are m sigs others start l -> nth_error l j = Some b -> Qabs (k * quarters m start b - inject_Z (Z.of_nat j)) <= inject_Z (Z.of_nat j) * e.
Proof. exact mf_drift. Qed.
Print Assumptions C216_drift.

(** C216: the number of beats is the number of beats of music in the piece, rounded up, or differs
    from it by one. *)
Theorem C216_count : forall m sigs others start k lo hi, tempo_map m -> meters sigs -> distinct_times sigs -> settled sigs start k -> beat_lengths m k lo hi ->
  0 < lo -> lo <= hi -> 0 <= start -> let stop := piece_end m (sort_sigs sigs) others in let e := slack stop lo hi (List.length m - 1) in e <= 1 # 4 ->
  forall l, beats_f_are m sigs others start l -> start < stop -> e * (k * quarters m start stop + 2) <= 1 # 2 ->
  let N := Qceiling (k * quarters m start stop) in (N - 1 <= Z.of_nat (List.length l) <= N + 1)%Z.
Proof. exact mf_count. Qed.
Print Assumptions C216_count.

(** C216: then the downbeats are every n-th beat from the first, n being the beats per bar of the meter
    (4 without one). *)
Theorem C216_downbeats : forall m sigs others start l n, m <> [] -> meters sigs -> distinct_times sigs -> (forall s, In s sigs -> ts_time s <= start) ->
  (forall s, in_force sigs s start -> beats_per_bar (ts_num s) n) -> (sigs = [] -> n = 4%nat) -> beats_f_are m sigs others start l -> StronglySorted Qle l ->
  exists d, downbeats_f_are m sigs others start d /\ forall j, nth_error d j = nth_error l (j * n).
Proof. exact settled_downbeats. Qed.
Print Assumptions C216_downbeats.

(** 6/8 before the start; 120, then 97 from 1.3 s, 60 from 3.7 s, 200 from a hair later; until 9 s. *)
Definition bm_tempi : list (Q * Q) := [(0, 120); (13 # 10, 97); (37 # 10, 60); (370001 # 100000, 200)].
Definition bm_sigs : list tsig := [mkTS 6 8 0; mkTS 3 4 (- (1))].
Lemma bm_ok : tempo_map bm_tempi /\ meters bm_sigs /\ distinct_times bm_sigs /\ settled bm_sigs 0 (8 # 12) /\ beat_lengths bm_tempi (8 # 12) (45 # 100) (3 # 2).
Proof.
  split; [|split; [|split; [|split]]].
  - split; [discriminate|]. split; [repeat constructor; vm_compute; discriminate|]. intros c [<-|[<-|[<-|[<-|[]]]]]; reflexivity.
  - intros s [<-|[<-|[]]]; cbn; lia.
  - repeat constructor; vm_compute; discriminate.
  - split; [intros s [<-|[<-|[]]]; vm_compute; discriminate|]. split; [|discriminate]. intros s [[<-|[<-|[]]] H].
    + split; [intros _ _; reflexivity|]. split; [|intros N; exfalso; apply N; cbn; auto 6]. intros _ N. exfalso. apply N. split; [exists 2%Z; reflexivity|discriminate].
    + exfalso. destruct H as [[_ H]|H].
      * specialize (H (mkTS 6 8 0) ltac:(left; auto) ltac:(vm_compute; discriminate)). vm_compute in H. auto.
      * destruct (H (mkTS 6 8 0) ltac:(left; auto)) as [H1 _]. vm_compute in H1. discriminate.
  - intros c [<-|[<-|[<-|[<-|[]]]]]; split; vm_compute; discriminate.
Qed.
Example C216_case : slack (piece_end bm_tempi (sort_sigs bm_sigs) [9]) (45 # 100) (3 # 2) 3 <= 1 # 1000000000 /\
  exists l l', get_beats_f 30 bm_tempi bm_sigs [9] 0 = Ok (Some l) /\ get_beats 30 bm_tempi bm_sigs [9] 0 = Ok (Some l') /\
    List.length l = 17%nat /\ List.length l' = 17%nat /\ nth 1 l 0 = 3 # 4 /\ ~ nth 2 l 0 == nth 2 l' 0.
Proof. split; [vm_compute; discriminate|]. eexists. eexists. split; [vm_compute; reflexivity|]. split; [vm_compute; reflexivity|]. split; [reflexivity|]. split; [reflexivity|]. split; [reflexivity|vm_compute; discriminate]. Qed.
Example C216_case_returns : exists l, beats_f_are bm_tempi bm_sigs [9] 0 l /\ StronglySorted Qlt l.
Proof. destruct bm_ok as [A [B [C [D F]]]]. apply (C216_returns _ _ _ _ (8 # 12) (45 # 100) (3 # 2)); auto; try reflexivity; vm_compute; discriminate. Qed.
(** ... two beats a bar. *)
Example C216_case_downbeats : exists l d, beats_f_are bm_tempi bm_sigs [9] 0 l /\ downbeats_f_are bm_tempi bm_sigs [9] 0 d /\ forall j, nth_error d j = nth_error l (j * 2).
Proof.
  destruct bm_ok as [A [B [C [D F]]]]. destruct C216_case_returns as [l [L SO]]. exists l.
  destruct (C216_downbeats bm_tempi bm_sigs [9] 0 l 2 (proj1 A) B C (proj1 D)) as [d [D1 D2]]; auto; [|discriminate| |exists d; auto].
  - intros s [[<-|[<-|[]]] H]; [split; [reflexivity|]; intros N; exfalso; apply N; split; [exists 2%Z; reflexivity|discriminate]|].
    exfalso. destruct H as [[_ H]|H].
    + specialize (H (mkTS 6 8 0) ltac:(left; auto) ltac:(vm_compute; discriminate)). vm_compute in H. auto.
    + destruct (H (mkTS 6 8 0) ltac:(left; auto)) as [H1 _]. vm_compute in H1. discriminate.
  - clear - SO. induction SO as [|a l S IH F]; constructor; auto. eapply Forall_impl; [|exact F]. intros. apply Qlt_le_weak. auto.
Qed.
