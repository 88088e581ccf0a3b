(** Properties C196 and C197: saving and loading notes that sound at the same time. *)
From Coq Require Import Sorted Permutation Lia.
From Verif Require Import PyBase M_SortedDict M_Note M_Ticks S_Ticks M_Load S_Load L_Load2 M_Write S_Write M_Meta S_Meta M_Song S_Song S_Cut L_Write2 L_Write3 L_Song6 P_Song.
Open Scope Z_scope.

(** C196: an instrument no key of which is struck twice at one tick is written and loaded so: every note is
    there with its pitch, velocity and start, and ends at the first later tick at which any note of the
    instrument starts or a note of its pitch ends; a note with no such tick lasts to the end of the track. *)
Theorem C196_track : forall dc timing l tracks n i,
  write_file dc timing l = Ok tracks -> nth_error l n = Some i -> midi_inst i -> struck_apart (w_notes i) ->
  exists cut, Forall2 (cut_note i) (w_notes i) cut /\
    Permutation (notes_of (load_file dc tracks) (w_prog i, channel_of dc n i, Z.of_nat (S n))) cut.
Proof.
  intros dc timing l tracks n i W N M Q. destruct (roundtrip_cut dc timing l tracks n i W N M Q) as [A _]. exists (map (cutn i) (w_notes i)). split; auto.
  assert (G : forall k, (forall x, In x k -> In x (w_notes i)) -> Forall2 (cut_note i) k (map (cutn i) k)).
  { induction k as [|x k IH]; intros H; cbn [map]; constructor; [apply cutn_spec; apply H; left; auto|apply IH; intros; apply H; right; auto]. }
  apply G; auto.
Qed.
Print Assumptions C196_track.
(** C196: no other end fits this description. *)
Theorem C196_unique : forall i n a b, cut_note i n a -> cut_note i n b -> a = b.
Proof. exact cut_unique. Qed.
Print Assumptions C196_unique.
(** C196: a note that lasts comes back as it is exactly if nothing stops it before its end. *)
Theorem C196_kept : forall i n, In n (w_notes i) -> pn_start n < pn_end n ->
  (cut_note i n n <-> forall m, In m (w_notes i) ->
     ~ (pn_start n < pn_start m < pn_end n) /\ (pn_pitch m = pn_pitch n -> ~ (pn_start n < pn_end m < pn_end n))).
Proof.
  intros i n N L. split.
  - intros (_ & _ & _ & _ & C) m M. split.
    + intros [A B]. assert (stops i n (pn_start m)) as ST by (split; [auto|left; eauto]). apply C in ST. lia.
    + intros E [A B]. assert (stops i n (pn_end m)) as ST by (split; [auto|right; left; eauto]). apply C in ST. lia.
  - intros H. split; auto. split; auto. split; auto. split; [split; [auto|right; left; eauto]|].
    intros t [A [[m [M ->]]|[[m [M [E ->]]]|[_ B]]]].
    + destruct (H m M) as [H1 _]. lia.
    + destruct (H m M) as [_ H2]. specialize (H2 E). lia.
    + assert (busy i (pn_end n)) as K by (right; left; exists n; auto). apply B in K. lia.
Qed.
Print Assumptions C196_kept.

(** C197: a piece whose clock came from a file and whose notes may sound at the same time, saved and loaded, is
    the piece with every note ended at the first time, on a later tick than its start, at which a note of its
    instrument starts or a note of its pitch ends; all else is as for C162. *)
Theorem C197_piece : forall keynum dc r evs last p0 ops sg file,
  0 < r -> tempo_events evs -> 0 <= last -> pm_load r evs last = Ok p0 -> sg_pm sg = pm_run p0 ops ->
  knows_keys keynum -> signatures_ok (sg_meta sg) -> (forall i, In i (sg_insts sg) -> sounding (sg_pm sg) i) ->
  serialize dc sg [] = Ok file -> short file ->
  exists sg2 sg', cut_song sg sg2 /\ load_song keynum dc r file = Ok sg' /\ same_song (settles (sum_to (tick_length r evs))) sg2 sg'.
Proof.
  intros keynum dc r evs last p0 ops sg file Hr TE L0 PLD EP HK SO PL SE SH. destruct (cut_exists sg PL) as [sg2 CUT].
  destruct (loaded_round_cut keynum dc r evs last p0 ops sg sg2 file Hr TE L0 PLD EP HK SO PL CUT SE SH) as [sg' [A [B _]]]. exists sg2, sg'. auto.
Qed.
Print Assumptions C197_piece.
(** C197: the same for an object made from scratch, under the tempo that its file has (C163). *)
Theorem C197_scratch : forall keynum dc r bpm p0 ops sg file,
  0 < r -> (0 < bpm <= 60000000)%Q -> pm_new r bpm = Ok p0 -> sg_pm sg = pm_run p0 ops ->
  knows_keys keynum -> signatures_ok (sg_meta sg) -> (forall i, In i (sg_insts sg) -> sounding (sg_pm sg) i) ->
  serialize dc sg [] = Ok file -> short file ->
  let us := Qround.Qfloor (60000000 / bpm) in
  let clock := fun k => (inject_Z k * (60 / (bpm * inject_Z r)))%Q in
  let clock' := fun k => (inject_Z k * (inject_Z us / (1000000 * inject_Z r)))%Q in
  exists sg2 sg', cut_song sg sg2 /\ load_song keynum dc r file = Ok sg' /\ same_song (moves clock clock') sg2 sg'.
Proof.
  intros keynum dc r bpm p0 ops sg file Hr HB PN EP HK SO PL SE SH us clock clock'. destruct (cut_exists sg PL) as [sg2 CUT].
  destruct (scratch_round_cut keynum dc r bpm p0 ops sg sg2 file Hr HB PN EP HK SO PL CUT SE SH) as [sg' [A [_ [B _]]]]. exists sg2, sg'. auto.
Qed.
Print Assumptions C197_scratch.

(** Two notes of a chord are held while a third enters: they end at its start; a key struck again before it is
    released ends at that stroke, and the first release ends the second stroke; a note of no length lasts to
    the end of the track. *)
Lemma apart_keys : forall l, NoDup (map (fun n => (pn_start n, pn_pitch n)) l) -> struck_apart l.
Proof.
  intros l H l1 a l2 b l3 -> E1 E2. rewrite map_app in H. cbn [map] in H. apply NoDup_app_r in H. inversion H as [|? ? N _]; subst. apply N.
  rewrite map_app, E1, E2. apply in_app_iff. right. left. reflexivity.
Qed.
Definition i196 : winst := mkW "" 4 false [mkP 90 60 0 8; mkP 80 64 0 4; mkP 70 67 2 12; mkP 90 60 5 12; mkP 60 72 12 12] [] [].
Example C196_case : midi_inst i196 /\ struck_apart (w_notes i196) /\ exists tracks, write_file 9 [(1, MEnd)] [i196] = Ok tracks /\
  notes_of (load_file 9 tracks) (4, 0, 1) = [mkP 90 60 0 2; mkP 80 64 0 2; mkP 70 67 2 5; mkP 90 60 5 8; mkP 60 72 12 13].
Proof.
  split; [|split; [|eexists; split; [reflexivity|vm_compute; reflexivity]]].
  - split; [|split]; cbn; intros x H; repeat (destruct H as [<-|H]; [unfold midi_note; cbn; lia|]); destruct H.
  - apply apart_keys. cbn. repeat (constructor; [cbn; intuition discriminate|]). constructor.
Qed.
Definition s197 : song := mkSong p162 (mkMeta [] [] []) [mkSI "a" 1 false [mkSN 90 60 0 1; mkSN 80 64 (1 # 4) (1 # 2)] [] []].
Example C197_case : (forall i, In i (sg_insts s197) -> sounding (sg_pm s197) i) /\ exists file sg', serialize 9 s197 [] = Ok file /\ short file /\ load_song k162 9 4 file = Ok sg' /\
  map (fun i => map (fun n => (sn_pitch n, Qred (sn_start n), Qred (sn_end n))) (si_notes i)) (sg_insts sg') = [[(60, 0%Q, (1 # 4)%Q); (64, (1 # 4)%Q, (1 # 2)%Q)]].
Proof.
  split.
  - intros i [<-|[]]. split; [cbn; intros n [<-|[<-|[]]]; cbn; lia|]. exists [mkP 90 60 0 6; mkP 80 64 2 4]. split; [|split].
    + constructor; [|constructor; [|constructor]]; (split; [vm_compute; reflexivity|split; [vm_compute; reflexivity|split; reflexivity]]).
    + cbn. intros w [<-|[<-|[]]]; cbn; lia.
    + intros l1 a l2 b l3 E. destruct l1 as [|? [|? [|? ?]]]; destruct l2 as [|? [|? ?]]; cbn in E; try discriminate. injection E as <- <- _. cbn. lia.
  - eexists. eexists. split; [vm_compute; reflexivity|]. split; [|split; vm_compute; reflexivity].
    intros t e T. cbn in T. repeat (destruct T as [<-|T]; [intros H; cbn in H; repeat (destruct H as [<-|H]; [reflexivity|]); destruct H|]). destruct T.
Qed.
