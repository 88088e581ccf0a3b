(** Properties C162 to C166: saving and loading whole pieces. *)
From Coq Require Import Sorted Permutation Lia Lqa Qabs Qround.
From Verif Require Import PyBase L_Base M_SortedDict M_Note M_Ticks S_Ticks L_Ticks M_Load S_Load M_Write S_Write M_Meta S_Meta M_Song S_Song S_KeyName L_Song2 L_Song6 L_Song8 L_Song9.
Open Scope Z_scope.

(** C162: a piece whose clock came from a file (whatever was asked of it since) and whose instruments can be
    told apart, saved to a new file and loaded again, comes back: signatures and lyrics, with a 4/4 signature
    added at the start when none is there, and every instrument with notes, in order, with name, program, drum
    flag, notes, bends and control changes; every time moves to a nearest tick, and does not move if it was
    on one; every tick keeps its time. *)
Theorem C162_piece : forall keynum dc r evs last p0 ops sg file,
  0 < r -> tempo_events evs -> 0 <= last -> pm_load r evs last = Ok p0 -> sg_pm sg = pm_run p0 ops ->
  knows_keys keynum -> signatures_ok (sg_meta sg) -> (forall i, In i (sg_insts sg) -> playable (sg_pm sg) i) ->
  serialize dc sg [] = Ok file -> short file ->
  exists sg', load_song keynum dc r file = Ok sg' /\ same_song (settles (sum_to (tick_length r evs))) sg sg' /\
    (forall ops' k, 0 <= k < MAX_TICK -> exists t, fst (tick_to_time (pm_run (sg_pm sg') ops') k) = Ok t /\ (t == sum_to (tick_length r evs) k)%Q).
Proof. exact loaded_round. Qed.
Print Assumptions C162_piece.

(** C162: a piece can be saved exactly when every value fits the bits of its message. *)
Theorem C162_savable : forall dc r sg file, 0 < r ->
  (exists evs last p0 ops, tempo_events evs /\ 0 <= last /\ pm_load r evs last = Ok p0 /\ sg_pm sg = pm_run p0 ops) \/
  (exists bpm p0 ops, (0 < bpm)%Q /\ pm_new r bpm = Ok p0 /\ sg_pm sg = pm_run p0 ops) ->
  ((exists out, serialize dc sg file = Ok out) <-> writable dc sg).
Proof.
  intros dc r sg file Hr H. apply save_iff.
  - intros t. destruct H as [(evs & last & p0 & ops & TE & L0 & PL & ->)|(bpm & p0 & ops & Hb & PN & ->)].
    + destruct (C37a r evs last p0 ops Hr TE L0 PL) as [C _]. destruct (C t) as [k [A _]]. exists k. auto.
    + destruct (C37b r bpm p0 ops Hr Hb PN) as [C _]. destruct (C t) as [k [A _]]. exists k. auto.
  - destruct H as [(evs & last & p0 & ops & TE & L0 & PL & ->)|(bpm & p0 & ops & Hb & PN & ->)].
    + assert (LM : last < MAX_TICK). { destruct (Z_lt_le_dec last MAX_TICK); auto. rewrite (pm_load_reject r evs last Hr TE l) in PL. discriminate. }
      destruct (pm_load_ok r evs last Hr TE L0 LM) as (p1 & m & E1 & LT & LV & PI & PR). rewrite PL in E1. injection E1 as <-.
      destruct (pm_run_inv m ops p0 (proj1 LV) PI) as [[SC _] RS]. rewrite SC. intros E. rewrite E in LV. destruct LV as [LV _]. destruct LV as (LV & _). destruct LV as [? [? LV]]. discriminate.
    + destruct (scratch_scales r bpm p0 Hr Hb PN) as (sc & S1 & _ & _ & S2). destruct (pm_new_ok r bpm Hr Hb) as (p1 & m & E1 & VM & PI & PR & FM). rewrite PN in E1. injection E1 as <-.
      destruct (pm_run_inv m ops p0 VM PI) as [[SC _] RS]. rewrite SC. destruct PI as [<- _]. rewrite S1. discriminate.
Qed.
Print Assumptions C162_savable.

(** C162: the names written for key signatures are right: number k < 12 is the major key on pitch class k, number
    12 + k the minor key. *)
Theorem C162_key_names : List.length key_names = 24%nat /\ forall k, 0 <= k < 24 -> exists s, py_nth key_names k = Ok s /\ key_meaning s = Some (k mod 12, 12 <=? k).
Proof.
  split; [reflexivity|]. intros k [H1 H2]. assert (H : k = Z.of_nat (Z.to_nat k)) by lia. assert (L : (Z.to_nat k < 24)%nat) by lia. rewrite H. generalize dependent (Z.to_nat k). intros n _ L. clear k H1 H2.
  do 24 (destruct n as [|n]; [eexists; split; reflexivity|]). exfalso. lia.
Qed.
Print Assumptions C162_key_names.

(** C163: an object made from scratch has no tempo of whole microseconds: its file is that of the next faster
    tempo, so every event comes back at the time of its nearest tick under that tempo. *)
Theorem C163_scratch : forall keynum dc r bpm p0 ops sg file,
  0 < r -> (0 < bpm <= 60000000)%Q -> pm_new r bpm = Ok p0 -> sg_pm sg = pm_run p0 ops ->
  knows_keys keynum -> signatures_ok (sg_meta sg) -> (forall i, In i (sg_insts sg) -> playable (sg_pm sg) i) ->
  serialize dc sg [] = Ok file -> short file ->
  let us := Qfloor (60000000 / bpm) in
  let clock := fun k => (inject_Z k * (60 / (bpm * inject_Z r)))%Q in
  let clock' := fun k => (inject_Z k * (inject_Z us / (1000000 * inject_Z r)))%Q in
  exists sg', load_song keynum dc r file = Ok sg' /\ same_song (moves clock clock') sg sg' /\
    (forall ops' k, 0 <= k < MAX_TICK -> exists t, fst (tick_to_time (pm_run (sg_pm sg') ops') k) = Ok t /\ (t == clock' k)%Q).
Proof. exact scratch_round. Qed.
Print Assumptions C163_scratch.
(** C163: an event is early by at most a microsecond per quarter note. *)
Theorem C163_early : forall r bpm k, 0 < r -> (0 < bpm)%Q -> 0 <= k ->
  let us := Qfloor (60000000 / bpm) in let c := (inject_Z k * (60 / (bpm * inject_Z r)))%Q in let c' := (inject_Z k * (inject_Z us / (1000000 * inject_Z r)))%Q in
  (c' <= c)%Q /\ (c - c' <= inject_Z k / (1000000 * inject_Z r))%Q.
Proof. exact scratch_clock. Qed.
Print Assumptions C163_early.

(** C164: a piece loaded from a clean file, saved and loaded, is the same piece: every value and every time of
    an event, and the time of every tick. *)
Theorem C164_reload : forall keynum dc r file sg1 file2, 0 < r -> knows_keys keynum -> clean_file file ->
  load_song keynum dc r file = Ok sg1 -> serialize dc sg1 [] = Ok file2 -> short file2 ->
  exists sg2, load_song keynum dc r file2 = Ok sg2 /\ same_song (fun t t' => (t' == t)%Q) sg1 sg2 /\
    (forall ops ops' k, 0 <= k < MAX_TICK -> exists t t', fst (tick_to_time (pm_run (sg_pm sg1) ops) k) = Ok t /\
       fst (tick_to_time (pm_run (sg_pm sg2) ops') k) = Ok t' /\ (t' == t)%Q).
Proof. exact reload. Qed.
Print Assumptions C164_reload.

(** C165: loading changes the MidiFile object it is given: the object is as before exactly if every message of
    a track but the last has time 0. *)
Theorem C165_object : forall file, file_after_load file = file <-> forall t, In t file -> all_but_last_zero (map fst t).
Proof. exact object_again. Qed.
Print Assumptions C165_object.

(** C166: saving into a MidiFile object subtracts neighbouring times of the tracks that are already there: they
    stay as they are exactly if every message of a track but the last has time 0. *)
Theorem C166_into : forall dc sg file out, serialize dc sg [] = Ok out ->
  exists old, serialize dc sg file = Ok (old ++ out) /\ List.length old = List.length file /\
    (old = file <-> forall t, In t file -> all_but_last_zero (map fst t)).
Proof.
  intros dc sg file out H. exists (map (f_delta 0) file). rewrite into_object, H. cbn [bind]. rewrite map_length. split; auto. split; auto. apply object_saved.
Qed.
Print Assumptions C166_into.
(** C166: into the object a piece was loaded from: its tracks get their times back, and the piece is appended. *)
Theorem C166_loaded : forall dc sg file out, serialize dc sg [] = Ok out -> serialize dc sg (file_after_load file) = Ok (file ++ out).
Proof. intros dc sg file out H. rewrite into_loaded, H. reflexivity. Qed.
Print Assumptions C166_loaded.

(** ** A small piece *)
(** 4 ticks per quarter note; 120 bpm, then 60 bpm from tick 4. *)
Definition e162 : list (Z * Z) := [(4, 1000000)].
Fixpoint pos162 (s : string) (n : Z) (l : list string) : res Z :=
  match l with [] => Err ValueError | x :: r => if String.eqb s x then Ok n else pos162 s (n + 1) r end.
Definition k162 (s : string) : res Z := pos162 s 0 key_names.
Definition i162 : list sinst :=
  [mkSI "Piano" 4 false [mkSN 90 60 0 (1 # 2); mkSN 80 62 (13 # 25) (3 # 4)] [((1 # 8)%Q, -100)] [(0%Q, 7, 100)];
   mkSI "none" 5 false [] [] [];
   mkSI "Drums" 0 true [mkSN 70 36 (1 # 2) 1] [] []].
Definition d162 : metadata := mkMeta [(7, (1 # 2)%Q)] [(3, 4, (1 # 4)%Q)] [("la"%string, (3 # 4)%Q)].
Definition f162 : list ftrack :=
  [[(0, FMeta (MTempo 500000)); (0, FMeta (MTime 4 4)); (2, FMeta (MTime 3 4)); (2, FMeta (MTempo 1000000)); (0, FMeta (MKey "G")); (1, FMeta (MLyric "la")); (1, FMsg MEnd)];
   [(0, FMsg (MName "Piano")); (0, FMsg (MProg 0 4)); (0, FMsg (MCC 0 7 100)); (0, FMsg (MOn 0 60 90)); (1, FMsg (MBend 0 (-100))); (3, FMsg (MOn 0 60 0)); (0, FMsg (MOn 0 62 80));
    (1, FMsg (MOn 0 62 0)); (1, FMsg MEnd)];
   [(0, FMsg (MName "none")); (0, FMsg (MProg 1 5)); (1, FMsg MEnd)];
   [(0, FMsg (MName "Drums")); (0, FMsg (MProg 9 0)); (4, FMsg (MOn 9 36 70)); (2, FMsg (MOn 9 36 0)); (1, FMsg MEnd)]].
Definition p162 : pm := match pm_load 4 e162 6 with Ok p => p | Err _ => mkPM 0 [] [] end.
Definition s162 : song := mkSong p162 d162 i162.
Lemma kk162 : knows_keys k162.
Proof.
  intros k s [H1 H2] E. assert (H : k = Z.of_nat (Z.to_nat k)) by lia. assert (L : (Z.to_nat k < 24)%nat) by lia. revert E. rewrite H. generalize dependent (Z.to_nat k). intros n _ L E. clear k H1 H2.
  do 24 (destruct n as [|n]; [cbn in E; injection E as <-; reflexivity|]). exfalso. lia.
Qed.
Lemma play162 : forall i, In i i162 -> playable p162 i.
Proof.
  intros i [<-|[<-|[<-|[]]]].
  - split; [cbn; intros n [<-|[<-|[]]]; cbn; lia|]. exists [mkP 90 60 0 4; mkP 80 62 4 5]. split.
    + constructor; [|constructor; [|constructor]]; (split; [vm_compute; reflexivity|split; [vm_compute; reflexivity|split; reflexivity]]).
    + split; [|split].
      * cbn. intros n [<-|[<-|[]]]; cbn; lia.
      * intros l1 a l2 b l3 E. destruct l1 as [|? [|? [|? ?]]]; destruct l2 as [|? [|? ?]]; cbn in E; try discriminate. injection E as <- <- _. cbn. lia.
      * cbn. intros a b [<-|[<-|[]]] [<-|[<-|[]]]; cbn; lia.
  - split; [intros n []|]. exists []. split; [constructor|]. split; [intros n []|]. split; [|intros a b []]. intros [|? ?] a l2 b l3 E; discriminate.
  - split; [cbn; intros n [<-|[]]; cbn; lia|]. exists [mkP 70 36 4 6]. split.
    + constructor; [|constructor]. split; [vm_compute; reflexivity|split; [vm_compute; reflexivity|split; reflexivity]].
    + split; [|split].
      * cbn. intros n [<-|[]]; cbn; lia.
      * intros l1 a l2 b l3 E. destruct l1 as [|? [|? ?]]; destruct l2 as [|? ?]; cbn in E; discriminate.
      * cbn. intros a b [<-|[]] [<-|[]]; cbn; lia.
Qed.
Lemma short162 : short f162.
Proof. intros t e T. cbn in T. repeat (destruct T as [<-|T]; [intros H; cbn in H; repeat (destruct H as [<-|H]; [reflexivity|]); destruct H|]). destruct T. Qed.
(** 0.52 s is no tick: it moves to 0.5 s; a 4/4 signature comes in; the instrument without notes goes. *)
Example C162_case : tempo_events e162 /\ pm_load 4 e162 6 = Ok p162 /\ knows_keys k162 /\ signatures_ok d162 /\ (forall i, In i i162 -> playable p162 i) /\
  serialize 9 s162 [] = Ok f162 /\ short f162 /\
  exists sg', load_song k162 9 4 f162 = Ok sg' /\ map si_name (sg_insts sg') = ["Piano"; "Drums"]%string /\
    map (fun i => map (fun n => Qred (sn_start n)) (si_notes i)) (sg_insts sg') = [[0%Q; (1 # 2)%Q]; [(1 # 2)%Q]] /\ map fst (md_times (sg_meta sg')) = [(4, 4); (3, 4)].
Proof.
  split; [|split; [vm_compute; reflexivity|split; [exact kk162|split; [|split; [exact play162|split; [vm_compute; reflexivity|split; [exact short162|]]]]]]].
  - split; [apply SSorted_cons; [apply SSorted_nil|apply Forall_nil]|]. intros e [<-|[]]. cbn. lia.
  - split; cbn; intros x [<-|[]]; cbn; lia.
  - eexists. split; [vm_compute; reflexivity|]. split; [|split]; vm_compute; reflexivity.
Qed.
(** A pitch of 200 does not fit; nor does a signature 3/5. *)
Example C162_unfit : serialize 9 (mkSong p162 (mkMeta [] [] []) [mkSI "" 0 false [mkSN 90 200 0 1] [] []]) [] = Err ValueError /\
  serialize 9 (mkSong p162 (mkMeta [] [(3, 5, 0%Q)] []) []) [] = Err ValueError /\ writable 9 s162.
Proof.
  split; [vm_compute; reflexivity|]. split; [vm_compute; reflexivity|]. apply (C162_savable 9 4 s162 []); [lia| |].
  - left. exists e162, 6, p162, []. split; [apply C162_case|]. split; [lia|]. split; [apply C162_case|reflexivity].
  - exists f162. apply C162_case.
Qed.
(** 7 bpm: 8571428 microseconds per quarter note instead of 8571428.57. *)
Definition p163 : pm := match pm_new 4 7 with Ok p => p | Err _ => mkPM 0 [] [] end.
Definition s163 : song := mkSong p163 (mkMeta [] [] []) [mkSI "a" 1 false [mkSN 90 60 0 9] [] []].
Example C163_case : pm_new 4 7 = Ok p163 /\ (forall i, In i (sg_insts s163) -> playable p163 i) /\
  exists file sg', serialize 9 s163 [] = Ok file /\ load_song k162 9 4 file = Ok sg' /\ short file /\
    map (fun i => map (fun n => Qred (sn_end n)) (si_notes i)) (sg_insts sg') = [[Qred (8571428 # 1000000)]].
Proof.
  split; [vm_compute; reflexivity|]. split.
  - intros i [<-|[]]. split; [cbn; intros n [<-|[]]; cbn; lia|]. exists [mkP 90 60 0 4]. split.
    + constructor; [|constructor]. split; [vm_compute; reflexivity|split; [vm_compute; reflexivity|split; reflexivity]].
    + split; [|split].
      * cbn. intros n [<-|[]]; cbn; lia.
      * intros l1 a l2 b l3 E. destruct l1 as [|? [|? ?]]; destruct l2 as [|? ?]; cbn in E; discriminate.
      * cbn. intros a b [<-|[]] [<-|[]]; cbn; lia.
  - eexists. eexists. split; [vm_compute; reflexivity|]. split; [vm_compute; reflexivity|]. split; [|vm_compute; reflexivity].
    intros t e T. cbn in T. repeat (destruct T as [<-|T]; [intros H; cbn in H; repeat (destruct H as [<-|H]; [reflexivity|]); destruct H|]). destruct T.
Qed.
(** The file of C162 is clean. *)
Example C164_case : clean_file f162 /\ exists sg1, load_song k162 9 4 f162 = Ok sg1 /\ serialize 9 sg1 [] = Ok
  [[(0, FMeta (MTempo 500000)); (0, FMeta (MTime 4 4)); (2, FMeta (MTime 3 4)); (2, FMeta (MTempo 1000000)); (0, FMeta (MKey "G")); (1, FMeta (MLyric "la")); (1, FMsg MEnd)];
   [(0, FMsg (MName "Piano")); (0, FMsg (MProg 0 4)); (0, FMsg (MCC 0 7 100)); (0, FMsg (MOn 0 60 90)); (1, FMsg (MBend 0 (-100))); (3, FMsg (MOn 0 60 0)); (0, FMsg (MOn 0 62 80));
    (1, FMsg (MOn 0 62 0)); (1, FMsg MEnd)];
   [(0, FMsg (MName "Drums")); (0, FMsg (MProg 9 0)); (4, FMsg (MOn 9 36 70)); (2, FMsg (MOn 9 36 0)); (1, FMsg MEnd)]].
Proof.
  split; [|eexists; split; [vm_compute; reflexivity|vm_compute; reflexivity]]. split; [|split].
  - intros t e T. cbn in T. repeat (destruct T as [<-|T]; [intros H; cbn in H; repeat (destruct H as [<-|H]; [cbn; lia|]); destruct H|]). destruct T.
  - intros t0 rest d us E H. injection E as <- _. cbn in H. repeat (destruct H as [H|H]; [try discriminate; injection H as <- <-; lia|]). destruct H.
  - assert (G : forall A (l1 : list A) x l2 y l3 l, l = l1 ++ x :: l2 ++ y :: l3 -> exists i j, (i < j)%nat /\ nth_error l i = Some x /\ nth_error l j = Some y).
    { intros A l1 x l2 y l3 l ->. exists (List.length l1), (List.length l1 + S (List.length l2))%nat. split; [lia|]. split.
      - rewrite nth_error_app2, Nat.sub_diag by lia. reflexivity.
      - rewrite nth_error_app2 by lia. replace (_ - _)%nat with (S (List.length l2)) by lia. cbn [nth_error]. rewrite nth_error_app2, Nat.sub_diag by lia. reflexivity. }
    intros t T l. split.
    + intros l1 l2 l3 k c n v w E V W. destruct (G _ _ _ _ _ _ _ E) as (i & j & IJ & I & J). subst l. clear E.
      repeat (destruct T as [<-|T]; [cbn in I, J;
        repeat (lazymatch type of I with nth_error [] i = _ => fail | _ => idtac end; destruct i as [|i]; cbn [nth_error] in I;
          [try discriminate; injection I as <- <- <- <-;
           repeat (lazymatch type of J with nth_error [] j = _ => fail | _ => idtac end; destruct j as [|j]; cbn [nth_error] in J; [first [lia|discriminate|injection J as <-; lia]|]);
           destruct j; discriminate|]); destruct i; discriminate|]). destruct T.
    + intros k c n v e I V J. subst l.
      repeat (destruct T as [<-|T]; [cbn in I, J; repeat (destruct I as [I|I]; [try discriminate; injection I as <- <- <- <-; try lia; repeat (destruct J as [J|J]; [try discriminate; injection J as <-; lia|]); destruct J|]); destruct I|]). destruct T.
Qed.
(** The second load of one object finds the events later than the first. *)
Example C165_case : file_after_load [[(0, FMsg (MOn 0 60 90)); (3, FMsg (MOn 0 60 0)); (4, FMsg MEnd)]] =
  [[(0, FMsg (MOn 0 60 90)); (3, FMsg (MOn 0 60 0)); (7, FMsg MEnd)]] /\
  exists s1 s2, load_song k162 9 4 [[(0, FMsg (MOn 0 60 90)); (3, FMsg (MOn 0 60 0)); (1, FMsg (MOn 0 62 90)); (1, FMsg (MOn 0 62 0)); (1, FMsg MEnd)]] = Ok s1 /\
    load_song k162 9 4 (file_after_load [[(0, FMsg (MOn 0 60 90)); (3, FMsg (MOn 0 60 0)); (1, FMsg (MOn 0 62 90)); (1, FMsg (MOn 0 62 0)); (1, FMsg MEnd)]]) = Ok s2 /\
    map (fun i => map (fun n => Qred (sn_start n)) (si_notes i)) (sg_insts s1) = [[0%Q; (1 # 2)%Q]] /\
    map (fun i => map (fun n => Qred (sn_start n)) (si_notes i)) (sg_insts s2) = [[0%Q; (7 # 8)%Q]].
Proof. split; [reflexivity|]. eexists. eexists. split; [vm_compute; reflexivity|]. split; [vm_compute; reflexivity|]. split; vm_compute; reflexivity. Qed.
Example C166_case : exists out, serialize 9 s162 [[(0, FMsg (MOn 0 60 90)); (3, FMsg (MOn 0 60 0)); (4, FMsg MEnd)]] =
  Ok ([(0, FMsg (MOn 0 60 90)); (3, FMsg (MOn 0 60 0)); (1, FMsg MEnd)] :: out).
Proof. eexists. vm_compute. reflexivity. Qed.
