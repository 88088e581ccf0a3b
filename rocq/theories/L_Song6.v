(** Saving and loading pieces with the clock of a loaded file and of an object made from scratch. *)
From Coq Require Import Sorted Permutation Lia Lqa Qabs Qround.
From Verif Require Import PyBase L_Base M_SortedDict M_Note L_Note L_Note2 M_Ticks S_Ticks L_Ticks M_Load S_Load L_Load2 M_Write S_Write S_Cut L_Write L_Write2 L_Write3 L_Write4 M_Meta S_Meta L_Meta M_Song S_Song L_Song L_Song2 L_Song3 L_Song4 L_Song5.
Open Scope Z_scope.

(** ** Changing the relation between times *)
Definition note_times (n : snote) : list Q := [sn_start n; sn_end n].
Definition inst_times (i : sinst) : list Q := flat_map note_times (si_notes i) ++ map fst (si_bends i) ++ map (fun c => fst (fst c)) (si_ccs i).
Definition all_times (s : song) : list Q :=
  0%Q :: map snd (md_keys (sg_meta s)) ++ map snd (md_times (sg_meta s)) ++ map snd (md_lyrics (sg_meta s)) ++ flat_map inst_times (sg_insts s).
Section MONO.
Variables (R R' : Q -> Q -> Prop).
Lemma returns_imp : forall A (l : list (A * Q)) (l' : list (A * Q)), (forall x, In x l -> forall t, R (snd x) t -> R' (snd x) t) ->
  returns snd (fun x y => fst y = fst x /\ R (snd x) (snd y)) l l' -> returns snd (fun x y => fst y = fst x /\ R' (snd x) (snd y)) l l'.
Proof.
  intros A l l' H [l1 [P [F S1]]]. exists l1. split; auto. split; auto. eapply Forall2_imp; [|exact F]. cbn. intros a b I _ [E K]. split; auto.
  apply H; auto. apply (Permutation_in _ P I).
Qed.
Lemma same_inst_imp : forall i i', (forall x, In x (inst_times i) -> forall t, R x t -> R' x t) -> same_inst R i i' -> same_inst R' i i'.
Proof.
  intros i i' H (A1 & A2 & A3 & [l1 [P1 F1]] & [l2 [P2 F2]] & [l3 [P3 F3]] & S1 & S2 & S3). unfold same_inst.
  repeat split; auto.
  - exists l1. split; auto. eapply Forall2_imp; [|exact F1]. intros a b I _ (B1 & B2 & B3 & B4). apply (Permutation_in _ P1) in I.
    unfold same_note. repeat split; auto; apply H; auto; unfold inst_times; apply in_app_iff; left; apply in_flat_map; exists a; split; auto; cbn; auto.
  - exists l2. split; auto. eapply Forall2_imp; [|exact F2]. cbn. intros a b I _ (B1 & B2). apply (Permutation_in _ P2) in I. split; auto.
    apply H; auto. unfold inst_times. rewrite !in_app_iff. right. left. apply in_map_iff. exists a. auto.
  - exists l3. split; auto. eapply Forall2_imp; [|exact F3]. cbn. intros a b I _ (B1 & B2 & B3). apply (Permutation_in _ P3) in I. repeat split; auto.
    apply H; auto. unfold inst_times. rewrite !in_app_iff. right. right. apply in_map_iff. exists a. auto.
Qed.
Lemma same_song_imp : forall a b, (forall x, In x (all_times a) -> forall t, R x t -> R' x t) -> same_song R a b -> same_song R' a b.
Proof.
  intros a b H (A & B & C & D). unfold all_times in H. split; [|split; [|split]].
  - eapply returns_imp; [|exact A]. intros x I. apply H. right. rewrite !in_app_iff. left. apply in_map_iff. eauto.
  - eapply returns_imp; [|exact B]. intros x I. apply H. unfold with_default in I. destruct (forallb _ _).
    + destruct I as [<-|I]; [left; auto|]. right. rewrite !in_app_iff. right. left. apply in_map_iff. eauto.
    + right. rewrite !in_app_iff. right. left. apply in_map_iff. eauto.
  - eapply returns_imp; [|exact C]. intros x I. apply H. right. rewrite !in_app_iff. right. right. left. apply in_map_iff. eauto.
  - eapply Forall2_imp; [|exact D]. intros i i' I _. apply same_inst_imp. intros x X. apply H. right. rewrite !in_app_iff. right. right. right.
    apply filter_In in I as [I _]. apply in_flat_map. exists i. auto.
Qed.
End MONO.

(** ** Clocks *)
Lemma settles_of : forall f t t', (forall i, 0 <= i -> (0 < f i)%Q) -> snaps (sum_to f) t t' -> settles (sum_to f) t t'.
Proof.
  intros f t t' P H. split; auto. intros k K E. destruct H as [j [[J N] E']]. rewrite E', E. 
  assert (j = k); [|subst; reflexivity]. apply (exact_tick f t j k); auto. intros i I. rewrite !Qabsb_Qabs. apply N; auto.
Qed.
Lemma tick_length_ext : forall r a b j, at_tick a j 500000 = at_tick b j 500000 -> tick_length r a j = tick_length r b j.
Proof. intros. unfold tick_length. rewrite H. reflexivity. Qed.

(** ** Notes cut *)
Lemma playable_sounding : forall p i, playable p i -> sounding p i.
Proof. intros p i [V [ws [F Q]]]. split; auto. exists ws. split; auto. split; [apply Q|apply seq_apart; auto]. Qed.
Lemma playable_cut : forall p i, playable p i -> cut_inst p i i.
Proof.
  intros p i [V [ws [F Q]]]. unfold cut_inst. do 5 (split; [reflexivity|]).
  assert (G : forall n w, In n (si_notes i) -> In w ws -> on_ticks p n w -> stop_time p (si_notes i) n (sn_end n) /\
     forall t k k', stop_time p (si_notes i) n t -> time_to_tick p t = Ok k -> time_to_tick p (sn_end n) = Ok k' -> k' <= k).
  { intros n w N W (O1 & O2 & O3 & O4). pose proof (seq_apart _ Q) as AP. destruct Q as [Q1 [Q2 Q3]]. specialize (Q1 w W) as L. split.
    - split; [exists n; auto|]. exists (pn_start w), (pn_end w). auto.
    - intros t k k' [[m [M E]] (a & b & A1 & A2 & A3)] K K'. rewrite K in A2. injection A2 as <-. rewrite O1 in A1. injection A1 as <-. rewrite O2 in K'. injection K' as <-.
      destruct (F2_in_l' _ _ _ _ _ _ F M) as [x [X (X1 & X2 & X3 & X4)]]. destruct E as [->|[E ->]].
      + rewrite X1 in K. injection K as <-. apply Q3; auto.
      + rewrite X2 in K. injection K as <-. destruct (Z.lt_trichotomy (pn_start x) (pn_start w)) as [J|[J|J]].
        * specialize (Q3 x w X W J). lia.
        * assert (x = w) by (apply (seq_same ws); auto; congruence). subst. lia.
        * specialize (Q3 w x W X J). specialize (Q1 x X). lia. }
  assert (H : forall l ws', Forall2 (on_ticks p) l ws' -> (forall n, In n l -> In n (si_notes i)) -> (forall w, In w ws' -> In w ws) ->
    Forall2 (fun n n' => sn_vel n' = sn_vel n /\ sn_pitch n' = sn_pitch n /\ sn_start n' = sn_start n /\ stop_time p (si_notes i) n (sn_end n') /\
      forall t k k', stop_time p (si_notes i) n t -> time_to_tick p t = Ok k -> time_to_tick p (sn_end n') = Ok k' -> k' <= k) l l).
  { intros l ws' F'. induction F' as [|n w l ws' O F' IH]; intros I1 I2; constructor.
    - destruct (G n w) as [G1 G2]; [apply I1; left; auto|apply I2; left; auto|auto|]. auto 10.
    - apply IH; intros; [apply I1|apply I2]; right; auto. }
  apply (H _ ws); auto.
Qed.
Lemma playable_song : forall sg, (forall i, In i (sg_insts sg) -> playable (sg_pm sg) i) -> cut_song sg sg.
Proof.
  intros sg H. split; auto. split; auto. induction (sg_insts sg) as [|i l IH]; constructor; [apply playable_cut; apply H; left; auto|apply IH; intros; apply H; right; auto].
Qed.
(** Every piece that sounds can be cut. *)
Lemma cut_exists : forall sg, (forall i, In i (sg_insts sg) -> sounding (sg_pm sg) i) -> exists sg2, cut_song sg sg2.
Proof.
  intros sg H. set (p := sg_pm sg) in *.
  assert (G : forall i, sounding p i -> exists i2, cut_inst p i i2).
  { intros i [V [ws [F [LA AP]]]].
    assert (N : forall n, In n (si_notes i) -> exists t, stop_time p (si_notes i) n t /\ forall t' k k', stop_time p (si_notes i) n t' -> time_to_tick p t' = Ok k -> time_to_tick p t = Ok k' -> k' <= k).
    { intros n I. set (cand := map sn_start (si_notes i) ++ map sn_end (filter (fun m => sn_pitch m =? sn_pitch n) (si_notes i))).
      assert (CI : forall t, In t cand <-> exists m, In m (si_notes i) /\ (t = sn_start m \/ sn_pitch m = sn_pitch n /\ t = sn_end m)).
      { intros t. unfold cand. rewrite in_app_iff, !in_map_iff. split.
        - intros [[m [<- M]]|[m [<- M]]]; [exists m; auto|]. apply filter_In in M as [M E]. apply Z.eqb_eq in E. exists m; auto.
        - intros [m [M [->|[E ->]]]]; [left; eauto|right]. exists m. split; auto. apply filter_In. split; auto. apply Z.eqb_eq; auto. }
      assert (ST : forall t, stop_time p (si_notes i) n t <-> In t cand /\ exists s k, time_to_tick p (sn_start n) = Ok s /\ time_to_tick p t = Ok k /\ s < k).
      { intros t. unfold stop_time. rewrite CI. reflexivity. }
      assert (MIN : forall l, (exists t, In t l /\ exists s k, time_to_tick p (sn_start n) = Ok s /\ time_to_tick p t = Ok k /\ s < k) ->
        exists t, (In t l /\ exists s k, time_to_tick p (sn_start n) = Ok s /\ time_to_tick p t = Ok k /\ s < k) /\
          forall t' k k', (In t' l /\ exists s k, time_to_tick p (sn_start n) = Ok s /\ time_to_tick p t' = Ok k /\ s < k) -> time_to_tick p t' = Ok k -> time_to_tick p t = Ok k' -> k' <= k).
      { induction l as [|x l IH]; intros [t [I1 I2]]; [destruct I1|].
        assert (D : (exists s k, time_to_tick p (sn_start n) = Ok s /\ time_to_tick p x = Ok k /\ s < k) \/ ~ (exists s k, time_to_tick p (sn_start n) = Ok s /\ time_to_tick p x = Ok k /\ s < k)).
        { destruct (time_to_tick p (sn_start n)) as [s|]; [|right; intros (? & ? & ? & _); discriminate]. destruct (time_to_tick p x) as [k|]; [|right; intros (? & ? & _ & ? & _); discriminate].
          destruct (Z_lt_le_dec s k); [left; eauto|right]. intros (s' & k' & A & B & C). injection A as <-. injection B as <-. lia. }
        assert (D2 : (exists t, In t l /\ exists s k, time_to_tick p (sn_start n) = Ok s /\ time_to_tick p t = Ok k /\ s < k) \/ ~ (exists t, In t l /\ exists s k, time_to_tick p (sn_start n) = Ok s /\ time_to_tick p t = Ok k /\ s < k)).
        { clear. induction l as [|y l IH]; [right; intros [t [[] _]]|]. destruct IH as [[t [A B]]|IH]; [left; exists t; cbn; auto|].
          destruct (time_to_tick p (sn_start n)) as [s|] eqn:E1; [|right; intros [t [_ (? & ? & ? & _)]]; discriminate].
          destruct (time_to_tick p y) as [k|] eqn:E2; [|right; intros [t [[<-|K] (s' & k' & A & B & C)]]; [congruence|apply IH; exists t; split; auto; exists s', k'; auto]].
          destruct (Z_lt_le_dec s k) as [L|L]; [left; exists y; split; [left; auto|exists s, k; auto]|right]. intros [t [[<-|K] (s' & k' & A & B & C)]].
          - rewrite E2 in B. injection A as <-. injection B as <-. lia.
          - apply IH. exists t. split; auto. exists s', k'. auto. }
        destruct D2 as [D2|D2].
        - destruct (IH D2) as [u [[U1 U2] U3]]. destruct D as [D|D].
          + destruct U2 as (s & ku & A1 & A2 & A3). destruct D as (s' & kx & B1 & B2 & B3). destruct (Z_le_gt_dec ku kx) as [L|L].
            * exists u. split; [split; [right; auto|exists s, ku; auto]|]. intros t' k k' [[<-|J] J2] K K'; [rewrite K in B2; rewrite K' in A2; injection B2 as <-; injection A2 as <-; auto|apply (U3 t'); auto].
            * exists x. split; [split; [left; auto|exists s', kx; auto]|]. intros t' k k' [[<-|J] J2] K K'; [rewrite K in K'; injection K' as <-; lia|].
              assert (ku <= k) by (apply (U3 t'); auto). rewrite K' in B2. injection B2 as <-. lia.
          + exists u. split; [split; [right; auto|auto]|]. intros t' k k' [[<-|J] J2] K K'; [contradiction|apply (U3 t'); auto].
        - assert (D3 : exists s k, time_to_tick p (sn_start n) = Ok s /\ time_to_tick p x = Ok k /\ s < k) by (destruct I1 as [->|I1]; [auto|exfalso; apply D2; eauto]).
          exists x. split; [split; [left; auto|auto]|]. intros t' k k' [[<-|J] J2] K K'; [rewrite K in K'; injection K' as <-; lia|]. exfalso. apply D2; eauto. }
      destruct (MIN cand) as [t [T1 T2]].
      - destruct (F2_in_l' _ _ _ _ _ _ F I) as [w [W (O1 & O2 & _)]]. exists (sn_end n). split; [apply CI; exists n; auto|]. exists (pn_start w), (pn_end w). auto.
      - exists t. split; [apply ST; auto|]. intros t' k k' S' K K'. apply (T2 t'); auto. apply ST; auto. }
    assert (L : forall l, (forall n, In n l -> In n (si_notes i)) -> exists l2, Forall2 (fun n n' => sn_vel n' = sn_vel n /\ sn_pitch n' = sn_pitch n /\ sn_start n' = sn_start n /\
      stop_time p (si_notes i) n (sn_end n') /\ forall t k k', stop_time p (si_notes i) n t -> time_to_tick p t = Ok k -> time_to_tick p (sn_end n') = Ok k' -> k' <= k) l l2).
    { induction l as [|n l IH]; intros I; [exists []; constructor|]. destruct IH as [l2 F2]; [intros; apply I; right; auto|]. destruct (N n (I n (or_introl eq_refl))) as [t [T1 T2]].
      exists (mkSN (sn_vel n) (sn_pitch n) (sn_start n) t :: l2). constructor; auto 10. }
    destruct (L (si_notes i) (fun n H => H)) as [l2 F2]. exists (mkSI (si_name i) (si_prog i) (si_drum i) l2 (si_bends i) (si_ccs i)).
    unfold cut_inst. cbn [si_name si_prog si_drum si_notes si_bends si_ccs]. auto 10. }
  assert (L : exists l2, Forall2 (cut_inst p) (sg_insts sg) l2).
  { induction (sg_insts sg) as [|i l IH]; [exists []; constructor|]. destruct IH as [l2 F2]; [intros; apply H; right; auto|]. destruct (G i (H i (or_introl eq_refl))) as [i2 C]. exists (i2 :: l2). constructor; auto. }
  destruct L as [l2 F2]. exists (mkSong p (sg_meta sg) l2). split; [reflexivity|]. split; [reflexivity|]. exact F2.
Qed.

Lemma loaded_round_cut : forall keynum dc r evs last p0 ops sg sg2 file,
  0 < r -> tempo_events evs -> 0 <= last -> pm_load r evs last = Ok p0 -> sg_pm sg = pm_run p0 ops ->
  (forall k s, 0 <= k < 24 -> py_nth key_names k = Ok s -> keynum s = Ok k) ->
  signatures_ok (sg_meta sg) -> (forall i, In i (sg_insts sg) -> sounding (sg_pm sg) i) -> cut_song sg sg2 ->
  serialize dc sg [] = Ok file -> (forall t e, In t file -> In e (f_abs 0 t) -> fst e < MAX_TICK) ->
  exists sg', load_song keynum dc r file = Ok sg' /\ same_song (settles (sum_to (tick_length r evs))) sg2 sg' /\
    (forall ops' k, 0 <= k < MAX_TICK -> exists t, fst (tick_to_time (pm_run (sg_pm sg') ops') k) = Ok t /\ (t == sum_to (tick_length r evs) k)%Q).
Proof.
  intros keynum dc r evs last p0 ops sg sg2 file Hr TE L0 PLD EP HK SO PL CUT SE SH.
  assert (LM : last < MAX_TICK).
  { destruct (Z_lt_le_dec last MAX_TICK); auto. rewrite (pm_load_reject r evs last Hr TE l) in PLD. discriminate. }
  destruct (pm_load_ok r evs last Hr TE L0 LM) as (p1 & m & E1 & LT & LV & PI & PR). rewrite PLD in E1. injection E1 as <-.
  destruct (pm_run_inv m ops p0 (proj1 LV) PI) as [[SC _] RS]. rewrite <- EP in SC, RS. rewrite PR in RS.
  destruct (tempo_round r evs m Hr TE LT) as [TE' AT].
  assert (NE : forall k, (sum_to (tick_length r (write_tempo r m)) k == sum_to (tick_length r evs) k)%Q).
  { intros k. apply sum_to_ext. intros j J. rewrite (tick_length_ext r (write_tempo r m) evs j); [reflexivity|]. apply AT. lia. }
  assert (POS : forall i, 0 <= i -> (0 < tick_length r evs i)%Q) by (intros; apply tick_length_pos; auto).
  destruct (song_round sg sg2 (tick_length r evs) dc keynum file) as [sg' [LS [[lt [PL' LB]] SM]]]; auto.
  - intros t. destruct (C37a r evs last p0 ops Hr TE L0 PLD) as [C _]. destruct (C t) as [k [A [B D]]]. exists k. rewrite EP. split; auto. split; auto.
    intros j J. rewrite <- !Qabsb_Qabs. apply D; auto.
  - rewrite RS. auto.
  - rewrite RS, SC. auto.
  - exists sg'. rewrite RS, ?SC in *. split; auto. split.
    + eapply same_song_imp; [|exact SM]. intros x _ t K. apply settles_of; auto. unfold goes, new in K. destruct K as [k [N E]]. exists k. split; auto. rewrite E.
      rewrite RS, SC. apply NE.
    + intros ops' k K. destruct (C36a r (write_tempo r m) lt Hr TE' ltac:(lia)) as [_ C]. destruct (C ltac:(lia)) as [p2 [E2 C2]].
      rewrite PL' in E2. injection E2 as <-. destruct (C2 ops' k ltac:(lia)) as [_ C3]. destruct (C3 ltac:(lia)) as [t [T1 T2]]. exists t. split; auto. rewrite T2. apply NE.
Qed.

Lemma loaded_round : forall keynum dc r evs last p0 ops sg file,
  0 < r -> tempo_events evs -> 0 <= last -> pm_load r evs last = Ok p0 -> sg_pm sg = pm_run p0 ops ->
  (forall k s, 0 <= k < 24 -> py_nth key_names k = Ok s -> keynum s = Ok k) ->
  signatures_ok (sg_meta sg) -> (forall i, In i (sg_insts sg) -> playable (sg_pm sg) i) ->
  serialize dc sg [] = Ok file -> (forall t e, In t file -> In e (f_abs 0 t) -> fst e < MAX_TICK) ->
  exists sg', load_song keynum dc r file = Ok sg' /\ same_song (settles (sum_to (tick_length r evs))) sg sg' /\
    (forall ops' k, 0 <= k < MAX_TICK -> exists t, fst (tick_to_time (pm_run (sg_pm sg') ops') k) = Ok t /\ (t == sum_to (tick_length r evs) k)%Q).
Proof.
  intros keynum dc r evs last p0 ops sg file Hr TE L0 PLD EP HK SO PL SE SH.
  apply (loaded_round_cut keynum dc r evs last p0 ops sg sg file); auto; [intros i I; apply playable_sounding; auto|apply playable_song; auto].
Qed.

(** ** An object made from scratch *)
Lemma scratch_scales : forall r bpm p, 0 < r -> (0 < bpm)%Q -> pm_new r bpm = Ok p -> exists sc, p_scales p = [(0, sc)] /\ p_times p = [0%Q] /\ p_res p = r /\ (sc == 60 / (bpm * inject_Z r))%Q.
Proof.
  intros r bpm p Hr Hb H. unfold pm_new in H. destruct (scale_bpm_ok bpm r Hb Hr) as [s [E [S1 _]]]. rewrite E in H. cbn [bind] in H. injection H as <-. exists s. auto.
Qed.
Lemma scratch_tempo : forall r bpm sc, 0 < r -> (0 < bpm)%Q -> (sc == 60 / (bpm * inject_Z r))%Q -> write_tempo r [(0, sc)] = [(0, Qfloor (60000000 / bpm))].
Proof.
  intros r bpm sc Hr Hb E. unfold write_tempo. cbn [map fst snd]. do 2 f_equal. apply Qfloor_comp. rewrite E.
  assert (0 < inject_Z r)%Q by (apply inject_pos'; auto). field. split; lra.
Qed.
Lemma scratch_round_cut : forall keynum dc r bpm p0 ops sg sg2 file,
  0 < r -> (0 < bpm <= 60000000)%Q -> pm_new r bpm = Ok p0 -> sg_pm sg = pm_run p0 ops ->
  (forall k s, 0 <= k < 24 -> py_nth key_names k = Ok s -> keynum s = Ok k) ->
  signatures_ok (sg_meta sg) -> (forall i, In i (sg_insts sg) -> sounding (sg_pm sg) i) -> cut_song sg sg2 ->
  serialize dc sg [] = Ok file -> (forall t e, In t file -> In e (f_abs 0 t) -> fst e < MAX_TICK) ->
  let us := Qfloor (60000000 / bpm) in
  let clock := fun k => (inject_Z k * (60 / (bpm * inject_Z r)))%Q in let clock' := fun k => (inject_Z k * (inject_Z us / (1000000 * inject_Z r)))%Q in
  exists sg', load_song keynum dc r file = Ok sg' /\ (exists lt, pm_load r [(0, us)] lt = Ok (sg_pm sg') /\ 0 <= lt < MAX_TICK) /\ same_song (moves clock clock') sg2 sg' /\
    (forall ops' k, 0 <= k < MAX_TICK -> exists t, fst (tick_to_time (pm_run (sg_pm sg') ops') k) = Ok t /\ (t == clock' k)%Q).
Proof.
  intros keynum dc r bpm p0 ops sg sg2 file Hr [Hb Hu] PN EP HK SO PL CUT SE SH us clock clock'.
  destruct (pm_new_ok r bpm Hr Hb) as (p1 & m & E1 & VM & PI & PR & FM). rewrite PN in E1. injection E1 as <-.
  destruct (scratch_scales r bpm p0 Hr Hb PN) as (sc & S1 & _ & _ & S2).
  destruct (pm_run_inv m ops p0 VM PI) as [[SC _] RS]. rewrite <- EP in SC, RS. rewrite PR in RS.
  assert (SC' : p_scales (sg_pm sg) = [(0, sc)]) by (rewrite SC; destruct PI as [<- _]; auto).
  pose proof (scratch_tempo r bpm sc Hr Hb S2) as WT. fold us in WT.
  assert (R0 : (0 < inject_Z r)%Q) by (apply inject_pos'; auto).
  assert (US : 0 < us).
  { unfold us. assert (1 <= 60000000 / bpm)%Q. { apply Qle_shift_div_l; auto. lra. }
    assert (1 <= Qfloor (60000000 / bpm)); [|lia]. change 1 with (Qfloor 1). apply Qfloor_resp_le. auto. }
  assert (TE' : tempo_events [(0, us)]).
  { split.
    - apply SSorted_cons; [apply SSorted_nil|apply Forall_nil].
    - intros e [<-|[]]. cbn [fst snd]. split; [lia|exact US]. }
  assert (FP : (0 < 60 / (bpm * inject_Z r))%Q) by (apply Qlt_shift_div_l; [apply Qmult_lt_0_compat; auto|lra]).
  assert (C1 : forall k, 0 <= k -> (sum_to (fun _ => 60 / (bpm * inject_Z r))%Q k == clock k)%Q) by (intros; apply sum_const; auto).
  assert (C2 : forall k, 0 <= k -> (sum_to (tick_length r [(0%Z, us)]) k == clock' k)%Q).
  { intros k K. unfold clock'. rewrite <- (sum_const _ k K). apply sum_to_ext. intros j J. unfold tick_length. cbn [at_tick fold_left fst snd].
    destruct (Z.leb_spec 0 j); [reflexivity|lia]. }
  destruct (song_round sg sg2 (fun _ => 60 / (bpm * inject_Z r))%Q dc keynum file) as [sg' [LS [[lt [PL' LB]] SM]]]; auto.
  - intros t. destruct (C37b r bpm p0 ops Hr Hb PN) as [C _]. destruct (C t) as [k [A [B D]]]. exists k. rewrite EP. split; auto. split; auto.
    intros j J. rewrite <- !Qabsb_Qabs. specialize (D j J).
    assert (G : forall i, 0 <= i -> (Qabsb (t - sum_to (fun _ => 60 / (bpm * inject_Z r)) i) == Qabsb (t - inject_Z i * 60 / (bpm * inject_Z r)))%Q).
    { intros i I. apply Qabsb_comp. rewrite C1 by auto. unfold clock. field. split; lra. }
    rewrite !G; auto.
  - rewrite RS. auto.
  - rewrite RS, SC', WT. auto.
  - exists sg'. rewrite RS, ?SC', ?WT in *. split; auto. split; [exists lt; auto|]. split.
    + eapply same_song_imp; [|exact SM]. intros x _ t K. unfold goes, new in K. destruct K as [k [[N0 N] E]]. exists k. split; [split; auto|].
      * intros j J. rewrite <- !C1; auto.
      * rewrite E, RS, SC', WT. apply C2; auto.
    + intros ops' k K. destruct (C36a r [(0, us)] lt Hr TE' ltac:(lia)) as [_ C]. destruct (C ltac:(lia)) as [p2 [E2 C3]].
      rewrite PL' in E2. injection E2 as <-. destruct (C3 ops' k ltac:(lia)) as [_ C4]. destruct (C4 ltac:(lia)) as [t [T1 T2]]. exists t. split; auto. rewrite T2. apply C2; lia.
Qed.
Lemma scratch_round_full : forall keynum dc r bpm p0 ops sg file,
  0 < r -> (0 < bpm <= 60000000)%Q -> pm_new r bpm = Ok p0 -> sg_pm sg = pm_run p0 ops ->
  (forall k s, 0 <= k < 24 -> py_nth key_names k = Ok s -> keynum s = Ok k) ->
  signatures_ok (sg_meta sg) -> (forall i, In i (sg_insts sg) -> playable (sg_pm sg) i) ->
  serialize dc sg [] = Ok file -> (forall t e, In t file -> In e (f_abs 0 t) -> fst e < MAX_TICK) ->
  let us := Qfloor (60000000 / bpm) in
  let clock := fun k => (inject_Z k * (60 / (bpm * inject_Z r)))%Q in let clock' := fun k => (inject_Z k * (inject_Z us / (1000000 * inject_Z r)))%Q in
  exists sg', load_song keynum dc r file = Ok sg' /\ (exists lt, pm_load r [(0, us)] lt = Ok (sg_pm sg') /\ 0 <= lt < MAX_TICK) /\ same_song (moves clock clock') sg sg' /\
    (forall ops' k, 0 <= k < MAX_TICK -> exists t, fst (tick_to_time (pm_run (sg_pm sg') ops') k) = Ok t /\ (t == clock' k)%Q).
Proof.
  intros keynum dc r bpm p0 ops sg file Hr HB PN EP HK SO PL SE SH.
  apply (scratch_round_cut keynum dc r bpm p0 ops sg sg file); auto; [intros i I; apply playable_sounding; auto|apply playable_song; auto].
Qed.
Lemma scratch_round : forall keynum dc r bpm p0 ops sg file,
  0 < r -> (0 < bpm <= 60000000)%Q -> pm_new r bpm = Ok p0 -> sg_pm sg = pm_run p0 ops ->
  (forall k s, 0 <= k < 24 -> py_nth key_names k = Ok s -> keynum s = Ok k) ->
  signatures_ok (sg_meta sg) -> (forall i, In i (sg_insts sg) -> playable (sg_pm sg) i) ->
  serialize dc sg [] = Ok file -> (forall t e, In t file -> In e (f_abs 0 t) -> fst e < MAX_TICK) ->
  let us := Qfloor (60000000 / bpm) in
  let clock := fun k => (inject_Z k * (60 / (bpm * inject_Z r)))%Q in let clock' := fun k => (inject_Z k * (inject_Z us / (1000000 * inject_Z r)))%Q in
  exists sg', load_song keynum dc r file = Ok sg' /\ same_song (moves clock clock') sg sg' /\
    (forall ops' k, 0 <= k < MAX_TICK -> exists t, fst (tick_to_time (pm_run (sg_pm sg') ops') k) = Ok t /\ (t == clock' k)%Q).
Proof.
  intros keynum dc r bpm p0 ops sg file Hr Hb PN EP HK SO PL SE SH us clock clock'.
  destruct (scratch_round_full keynum dc r bpm p0 ops sg file Hr Hb PN EP HK SO PL SE SH) as (sg' & A & _ & B & C). exists sg'. auto.
Qed.
(** The tempo is slower than asked by less than a microsecond per beat. *)
Lemma scratch_clock : forall r bpm k, 0 < r -> (0 < bpm)%Q -> 0 <= k ->
  let us := Qfloor (60000000 / bpm) in let c := (inject_Z k * (60 / (bpm * inject_Z r)))%Q in let c' := (inject_Z k * (inject_Z us / (1000000 * inject_Z r)))%Q in
  (c' <= c)%Q /\ (c - c' <= inject_Z k / (1000000 * inject_Z r))%Q.
Proof.
  intros r bpm k Hr Hb K us c c'. assert (R0 : (0 < inject_Z r)%Q) by (apply inject_pos'; auto).
  assert (K0 : (0 <= inject_Z k)%Q) by (change 0%Q with (inject_Z 0); rewrite <- Zle_Qle; auto).
  pose proof (Qfloor_le (60000000 / bpm)) as F1. pose proof (Qlt_floor (60000000 / bpm)) as F2. fold us in F1, F2. rewrite inject_Z_succ in F2.
  set (u := inject_Z us) in *. set (x := (60000000 / bpm)%Q) in *.
  set (w := (inject_Z k / (1000000 * inject_Z r))%Q).
  assert (W : (0 <= w)%Q) by (apply Qle_shift_div_l; [lra|lra]).
  assert (E1 : (c == w * x)%Q) by (unfold c, w, x; field; split; lra). assert (E2 : (c' == w * u)%Q) by (unfold c', w; field; lra).
  rewrite E1, E2. split; nra.
Qed.
