(** Saving and loading a piece. *)
From Coq Require Import Sorted Permutation Lia Lqa Qabs Qround.
From Verif Require Import PyBase L_Base M_SortedDict M_Note L_Note L_Note2 M_Ticks S_Ticks L_Ticks M_Load S_Load L_Load2 M_Write S_Write S_Cut L_Write L_Write2 L_Write3 M_Meta S_Meta L_Meta M_Song S_Song L_Song L_Song2 L_Song3 L_Song4.
Open Scope Z_scope.

Lemma F2_sorted : forall A B (ta : A -> Z) (tb : B -> Q) (g : Z -> Q) l out, (forall j k, 0 <= j <= k -> (g j <= g k)%Q) ->
  (forall a, In a l -> 0 <= ta a) -> StronglySorted (fun a b => ta a <= ta b) l -> Forall2 (fun a b => (tb b == g (ta a))%Q) l out ->
  StronglySorted (fun a b => (tb a <= tb b)%Q) out.
Proof.
  intros A B ta tb g l out G H0 SS F. induction F as [|a b l out E F IH]; [constructor|]. apply StronglySorted_inv in SS as [SS FS].
  constructor; [apply IH; auto; intros; apply H0; right; auto|]. apply Forall_forall. intros y Y. destruct (F2_in_r _ _ _ _ _ _ F Y) as [x [X E']].
  rewrite E, E'. apply G. rewrite Forall_forall in FS. split; [apply H0; left; auto|apply FS; auto].
Qed.
Lemma mapM_F2 : forall A B C (g : A -> res B) (P : A -> B -> Prop) (R : C -> A -> Prop) l (m : list C),
  (forall a, In a l -> exists b, g a = Ok b /\ P a b) -> exists out, mapM g l = Ok out /\ Forall2 P l out.
Proof.
  intros A B C g P R l m H. clear m R C. induction l as [|a l IH]; cbn; [exists []; split; [auto|constructor]|].
  destruct (H a (or_introl eq_refl)) as [b [-> Pb]]. destruct IH as [out [-> F]]; [intros; apply H; right; auto|]. cbn. exists (b :: out). split; auto.
Qed.

(** Ticks used by an instrument. *)
Definition uses (w : winst) (k : Z) : Prop :=
  (exists n, In n (w_notes w) /\ (k = pn_start n \/ k = pn_end n)) \/ (exists b, In b (w_bends w) /\ k = fst b) \/ (exists c, In c (w_ccs w) /\ k = fst (fst c)).
Lemma uses_in : forall ch w k, midi_inst w -> uses w k -> exists m, In (k, m) (write_track ch w).
Proof.
  intros ch w k M U. destruct (track_shape2 ch w M) as [last [E _]].
  assert (G : forall e, In e (rest_events ch w) -> In e (write_track ch w)).
  { intros e K. rewrite E. apply in_app_iff. right. right. unfold Tail. apply in_app_iff. left. eapply Permutation_in; [apply tail_perm|exact K]. }
  destruct U as [[n [N [->| ->]]]|[[b [B ->]]|[c [C ->]]]]; eexists; apply G; unfold rest_events; rewrite !in_app_iff.
  - left. apply in_flat_map. exists n. split; auto. left. reflexivity.
  - left. apply in_flat_map. exists n. split; auto. right. left. reflexivity.
  - right. left. apply in_map_iff. exists b. split; auto.
  - right. right. apply in_map_iff. exists c. split; auto.
Qed.
Lemma write_insts_in : forall dc l n t, In t (write_insts dc n l) -> exists w k, In w l /\ t = write_track (channel_of dc k w) w.
Proof.
  induction l as [|w l IH]; intros n t H; cbn in H; [tauto|]. destruct H as [<-|H]; [exists w, n; split; [left; auto|auto]|].
  destruct (IH _ _ H) as [w' [k [K ->]]]. exists w', k. split; [right; auto|auto].
Qed.
Lemma write_insts_of : forall dc l n w, In w l -> exists k, In (write_track (channel_of dc k w) w) (write_insts dc n l).
Proof.
  induction l as [|w' l IH]; intros n w H; [destruct H|]. destruct H as [->|H]; [exists n; left; auto|]. destruct (IH (S n) w H) as [k K]. exists k. right; auto.
Qed.
Lemma write_pos : forall ch w, midi_inst w -> ascending (write_track ch w) /\ (forall e, In e (write_track ch w) -> 0 <= fst e) /\ write_track ch w <> [].
Proof.
  intros ch w M. destruct (track_shape ch w M) as [last [E [B [e [E1 E2]]]]]. destruct (track_shape2 ch w M) as [_ [_ [_ [A _]]]]. split; auto.
  split; [|rewrite E; destruct (name_ev w); discriminate || (intros X; apply app_eq_nil in X as [_ X]; apply app_eq_nil in X as [_ X]; discriminate)].
  intros x X. rewrite E in X. rewrite !in_app_iff in X. destruct X as [X|[X|X]].
  - unfold name_ev in X. destruct (String.eqb _ _); cbn in X; [tauto|]. destruct X as [<-|[]]. cbn; lia.
  - apply B; auto.
  - destruct X as [<-|[]]. cbn. specialize (B e E1). lia.
Qed.
Lemma view_FMsg : forall l, view as_msg (view FMsg l) = l.
Proof. intros l. unfold view. rewrite map_map. rewrite <- (map_id l) at 2. apply map_ext. intros [k m]. reflexivity. Qed.
Lemma f_delta_pos : forall l t, StronglySorted (fun a b : Z * fmsg => fst a <= fst b) l -> (forall e, In e l -> t <= fst e) -> forall e, In e (f_delta t l) -> 0 <= fst e.
Proof.
  induction l as [|[k m] l IH]; intros t SS H e K; cbn in K; [tauto|]. apply StronglySorted_inv in SS as [SS FS].
  pose proof (H _ (or_introl eq_refl)) as X. cbn in X. destruct K as [<-|K]; [cbn; lia|]. apply (IH (t + (k - t)) SS); auto.
  intros x Y. rewrite Forall_forall in FS. specialize (FS x Y). cbn in FS. lia.
Qed.
Lemma view_in : forall A B (g : A -> B) l e, In e (view g l) <-> exists x, In x l /\ e = (fst x, g (snd x)).
Proof. intros. unfold view. rewrite in_map_iff. split; intros [x [H K]]; exists x; auto. Qed.
Lemma view_sorted : forall A B (g : A -> B) (l : list (Z * A)), StronglySorted (fun a b => fst a <= fst b) l -> StronglySorted (fun a b => fst a <= fst b) (view g l).
Proof.
  induction l as [|x l IH]; intros SS; cbn; [constructor|]. apply StronglySorted_inv in SS as [SS FS]. constructor; [apply IH; auto|].
  rewrite Forall_forall in *. intros y Y. apply view_in in Y as [z [K ->]]. cbn. apply FS; auto.
Qed.
Lemma f_delta_snd : forall l t e, In e (f_delta t l) -> exists k, In (k, snd e) l.
Proof. induction l as [|[k m] l IH]; intros t e K; cbn in K; [tauto|]. destruct K as [<-|K]; [exists k; left; auto|]. destruct (IH _ _ K) as [k' X]. exists k'. right; auto. Qed.
Lemma f_delta_nil : forall l t, f_delta t l = [] -> l = [].
Proof. intros [|[k m] l] t; [auto|discriminate]. Qed.
Lemma F2_eq_fun : forall A B (R : A -> B -> Prop) l m m', (forall a b b', R a b -> R a b' -> b = b') -> Forall2 R l m -> Forall2 R l m' -> m = m'.
Proof. intros A B R l m m' H F. revert m'. induction F; intros m' G; inversion G; subst; auto. f_equal; eauto. Qed.

Section ROUND.
Variables (sg sg2 : song) (f : Z -> Q) (dc : Z) (keynum : string -> res Z) (file : list ftrack).
Let p := sg_pm sg.
Let d := sg_meta sg.
Let r := p_res p.
Let evs' := write_tempo r (p_scales p).
Definition new : Z -> Q := sum_to (tick_length r evs').
Hypothesis Fpos : forall i, 0 <= i -> (0 < f i)%Q.
Hypothesis Near : forall t, exists k, time_to_tick p t = Ok k /\ nearest (sum_to f) t k.
Hypothesis Rpos : 0 < r.
Hypothesis TE : tempo_events evs'.
Hypothesis HK : forall k s, 0 <= k < 24 -> py_nth key_names k = Ok s -> keynum s = Ok k.
Hypothesis SE : serialize dc sg [] = Ok file.
Hypothesis PL : forall i, In i (sg_insts sg) -> sounding p i.
Hypothesis CUT : cut_song sg sg2.
Hypothesis SO : signatures_ok d.
Hypothesis SHORT : forall t e, In t file -> In e (f_abs 0 t) -> fst e < MAX_TICK.

Lemma new_mono : forall j k, 0 <= j <= k -> (new j <= new k)%Q.
Proof. intros. apply sum_to_le; auto. Qed.
Definition goes : Q -> Q -> Prop := moves (sum_to f) new.
Lemma goes_intro : forall t k q, time_to_tick p t = Ok k -> (q == new k)%Q -> goes t q.
Proof. intros t k q H E. exists k. split; auto. destruct (Near t) as [k' [E' N]]. fold p in E'. rewrite E' in H. injection H as <-. exact N. Qed.

(** Instruments as ticks. *)
Definition ticked (i : sinst) (w : winst) : Prop :=
  w_name w = si_name i /\ w_prog w = si_prog i /\ w_drum w = si_drum i /\ Forall2 (on_ticks p) (si_notes i) (w_notes w) /\
  Forall2 (fun b x => time_to_tick p (fst b) = Ok (fst x) /\ snd x = snd b) (si_bends i) (w_bends w) /\
  Forall2 (fun c x => time_to_tick p (fst (fst c)) = Ok (fst (fst x)) /\ snd (fst x) = snd (fst c) /\ snd x = snd c) (si_ccs i) (w_ccs w).
Lemma to_ticks_inv : forall i w, to_ticks p i = Ok w -> ticked i w.
Proof.
  intros i w H. unfold to_ticks in H.
  destruct (mapM _ (si_notes i)) as [ns|] eqn:E1; [|discriminate]. cbn [bind] in H.
  destruct (mapM _ (si_bends i)) as [bs|] eqn:E2; [|discriminate]. cbn [bind] in H.
  destruct (mapM _ (si_ccs i)) as [cs|] eqn:E3; [|discriminate]. cbn [bind] in H. apply Ok_inj in H. subst w.
  apply mapM_inv in E1, E2, E3. unfold ticked. cbn [w_name w_prog w_drum w_notes w_bends w_ccs]. repeat split; auto.
  - eapply Forall2_imp; [|exact E1]. cbn. intros a b _ _ K. destruct (time_to_tick p (sn_start a)) as [s|] eqn:S1; [|discriminate]. cbn [bind] in K.
    destruct (time_to_tick p (sn_end a)) as [e|] eqn:S2; [|discriminate]. cbn [bind] in K. injection K as <-. unfold on_ticks. cbn. auto.
  - eapply Forall2_imp; [|exact E2]. cbn. intros a b _ _ K. destruct (time_to_tick p (fst a)) as [s|] eqn:S1; [|discriminate]. cbn [bind] in K. injection K as <-. cbn. auto.
  - eapply Forall2_imp; [|exact E3]. cbn. intros a b _ _ K. destruct (time_to_tick p (fst (fst a))) as [s|] eqn:S1; [|discriminate]. cbn [bind] in K. injection K as <-. cbn. auto.
Qed.
Lemma nonneg : forall t k, time_to_tick p t = Ok k -> 0 <= k.
Proof. intros t k H. destruct (Near t) as [k' [E N]]. fold p in E. rewrite E in H. injection H as <-. exact (proj1 N). Qed.
Lemma ticked_midi : forall i w, In i (sg_insts sg) -> ticked i w -> messages_fit w = true -> midi_inst w /\ (forall n, In n (w_notes w) -> pn_start n < pn_end n) /\ struck_apart (w_notes w).
Proof.
  intros i w I (T1 & T2 & T3 & T4 & T5 & T6) MF. destruct (PL i I) as [VP [ws [F [QL Q]]]]. fold p in F.
  assert (EQ : ws = w_notes w).
  { eapply F2_eq_fun; [|exact F|exact T4]. intros a [v q s e] [v' q' s' e'] (A1 & A2 & A3 & A4) (B1 & B2 & B3 & B4). cbn in *. congruence. }
  subst ws. split; auto. unfold messages_fit in MF. rewrite !andb_true_iff in MF. destruct MF as [[[M1 M2] M3] M4].
  rewrite forallb_forall in M2, M3, M4. split; [|split].
  - intros n N. specialize (M2 n N). unfold byte7 in M2. rewrite !andb_true_iff in M2. destruct (F2_in_r _ _ _ _ _ _ T4 N) as [x [X (X1 & X2 & X3 & X4)]].
    specialize (VP x X). pose proof (QL n N). pose proof (nonneg _ _ X1). unfold midi_note. rewrite X3 in *. lia.
  - intros b B. specialize (M3 b B). rewrite andb_true_iff in M3. destruct (F2_in_r _ _ _ _ _ _ T5 B) as [x [X [X1 X2]]]. pose proof (nonneg _ _ X1). lia.
  - intros c C. specialize (M4 c C). unfold byte7 in M4. rewrite !andb_true_iff in M4. destruct (F2_in_r _ _ _ _ _ _ T6 C) as [x [X [X1 X2]]]. pose proof (nonneg _ _ X1). lia.
Qed.

(** The notes cut. *)
Lemma F2_triple : forall A B C (R : A -> B -> Prop) (T : A -> C -> Prop) l m k, Forall2 R l m -> Forall2 T l k -> Forall2 (fun b c => exists a, In a l /\ In b m /\ In c k /\ R a b /\ T a c) m k.
Proof.
  intros A B C R T l m k F. revert k. induction F as [|x y l m H F IH]; intros k G; inversion G; subst; constructor.
  - exists x. cbn. intuition.
  - eapply Forall2_imp; [|apply IH; eassumption]. cbn. intros b c _ _ [a (K1 & K2 & K3 & K4 & K5)]. exists a. intuition.
Qed.
Lemma F2_in_l' : forall A B (R : A -> B -> Prop) l m x, Forall2 R l m -> In x l -> exists y, In y m /\ R x y.
Proof. intros A B R l m x F. induction F as [|a b l m H F IH]; intros I; [destruct I|]. destruct I as [->|I]; [exists b; cbn; auto|]. destruct (IH I) as [y [Y1 Y2]]. exists y. cbn; auto. Qed.
Lemma ticked_cut : forall i i2 w, ticked i w -> cut_inst p i i2 -> (forall n, In n (w_notes w) -> pn_start n < pn_end n) -> ticked i2 (cutw w).
Proof.
  intros i i2 w (T1 & T2 & T3 & T4 & T5 & T6) (C1 & C2 & C3 & C4 & C5 & C6) LA. unfold ticked, cutw. cbn [w_name w_prog w_drum w_notes w_bends w_ccs].
  rewrite C4, C5. split; [congruence|]. split; [congruence|]. split; [congruence|]. split; [|auto].
  pose proof (F2_triple _ _ _ _ _ _ _ _ C6 T4) as F.
  assert (G : Forall2 (fun n2 wn => on_ticks p n2 (cutn w wn)) (si_notes i2) (w_notes w)).
  2:{ clear - G. induction G; cbn; constructor; auto. }
  eapply Forall2_imp; [|exact F]. cbn. intros n2 wn _ _ [n (N1 & N2 & N3 & (A1 & A2 & A3 & [A4 A5] & A6) & (B1 & B2 & B3 & B4))].
  destruct A5 as (s & k & S1 & S2 & S3). rewrite B1 in S1. injection S1 as <-.
  destruct (cutn_spec w wn N3) as (D1 & D2 & D3 & D4 & D5). unfold on_ticks. rewrite A3, D3, D1, D2. split; auto. split; [|split; congruence].
  rewrite S2. f_equal. apply Z.le_antisymm.
  - destruct D4 as [L [[m [M1 M2]]|[[m [M1 [M3 M2]]]|[M1 M2]]]].
    + destruct (F2_in_r _ _ _ _ _ _ T4 M1) as [x [X (X1 & X2 & X3 & X4)]]. apply (A6 (sn_start x)); auto; [|rewrite M2; auto].
      split; [exists x; auto|]. exists (pn_start wn), (pn_start m). split; auto. split; auto. lia.
    + destruct (F2_in_r _ _ _ _ _ _ T4 M1) as [x [X (X1 & X2 & X3 & X4)]]. apply (A6 (sn_end x)); auto; [|rewrite M2; auto].
      split; [exists x; split; auto; right; split; auto; congruence|]. exists (pn_start wn), (pn_end m). split; auto. split; auto. lia.
    + assert (busy w (pn_end wn)) as K by (right; left; exists wn; auto). apply M2 in K.
      assert (k <= pn_end wn); [|lia]. apply (A6 (sn_end n)); auto. split; [exists n; auto|]. exists (pn_start wn), (pn_end wn). auto.
  - apply D5. split; auto. destruct A4 as [m [M1 [M2|[M3 M2]]]]; destruct (F2_in_l' _ _ _ _ _ _ T4 M1) as [x [X (X1 & X2 & X3 & X4)]]; rewrite M2 in S2.
    + left. exists x. split; auto. congruence.
    + right. left. exists x. split; auto. split; congruence.
Qed.
Lemma uses_cut : forall w k, (forall n, In n (w_notes w) -> pn_start n < pn_end n) -> uses (cutw w) k -> uses w k.
Proof.
  intros w k LA [[n [N E]]|H]; [|right; exact H]. left. unfold cutw in N. cbn [w_notes] in N. apply in_map_iff in N as [x [<- N]].
  destruct (cutn_spec w x N) as (D1 & D2 & D3 & D4 & D5). destruct E as [->| ->]; [rewrite D3; eauto|].
  destruct D4 as [L [[m [M1 M2]]|[[m [M1 [M3 M2]]]|[M1 M2]]]].
  - exists m. auto.
  - exists m. auto.
  - exfalso. assert (busy w (pn_end x)) as K by (right; left; exists x; auto). apply M2 in K. assert (stops w x (pn_end x)) as ST by (split; [auto|right; left; eauto]). apply D5 in ST. lia.
Qed.

(** Reading the times back. *)
Lemma to_seconds_ok : forall p' s i w ins, ticked i w -> loaded_as s w ins -> (forall k, uses w k -> 0 <= k /\ exists q, py_nth (p_times p') k = Ok q /\ (q == new k)%Q) ->
  exists o, to_seconds p' s ins = Ok o /\ same_inst goes i o.
Proof.
  intros p' s i w ins (T1 & T2 & T3 & T4 & T5 & T6) (L1 & L2 & L3 & L4 & L5 & bs & cs & L6 & L7 & L8 & L9 & L10) U.
  unfold to_seconds. rewrite L6. cbn [c_bends c_ccs].
  destruct (mapM_F2 pnote snote unit (fun n => bind (py_nth (p_times p') (pn_start n)) (fun a => bind (py_nth (p_times p') (pn_end n)) (fun b => Ok (mkSN (pn_vel n) (pn_pitch n) a b))))
     (fun n o => sn_vel o = pn_vel n /\ sn_pitch o = pn_pitch n /\ (sn_start o == new (pn_start n))%Q /\ (sn_end o == new (pn_end n))%Q) (fun _ _ => True) (pi_notes ins) []) as [ns [E1 N1]].
  { intros n N. apply (Permutation_in _ L4) in N. destruct (U (pn_start n)) as [_ [a [A1 A2]]]; [left; exists n; auto|]. destruct (U (pn_end n)) as [_ [b [B1 B2]]]; [left; exists n; auto|].
    rewrite A1, B1. cbn. eexists. split; [reflexivity|]. cbn. auto. }
  destruct (mapM_F2 (Z * Z) (Q * Z) unit (fun b => bind (py_nth (p_times p') (fst b)) (fun t => Ok (t, snd b))) (fun b o => snd o = snd b /\ (fst o == new (fst b))%Q) (fun _ _ => True) bs []) as [bo [E2 N2]].
  { intros b B. apply (Permutation_in _ L7) in B. destruct (U (fst b)) as [_ [a [A1 A2]]]; [right; left; exists b; auto|]. rewrite A1. cbn. eexists. split; [reflexivity|]. cbn. auto. }
  destruct (mapM_F2 (Z * Z * Z) (Q * Z * Z) unit (fun x => bind (py_nth (p_times p') (fst (fst x))) (fun t => Ok (t, snd (fst x), snd x)))
     (fun c o => snd (fst o) = snd (fst c) /\ snd o = snd c /\ (fst (fst o) == new (fst (fst c)))%Q) (fun _ _ => True) cs []) as [co [E3 N3]].
  { intros b B. apply (Permutation_in _ L9) in B. destruct (U (fst (fst b))) as [_ [a [A1 A2]]]; [right; right; exists b; auto|]. rewrite A1. cbn. eexists. split; [reflexivity|]. cbn. auto. }
  rewrite E1. cbn [bind]. rewrite E2. cbn [bind]. rewrite E3. cbn [bind]. eexists. split; [reflexivity|].
  unfold same_inst. cbn [si_name si_prog si_drum si_notes si_bends si_ccs].
  split; [congruence|]. split; [congruence|]. split; [congruence|]. split; [|split; [|split; [|split; [|split]]]].
  - destruct (Forall2_perm _ _ _ _ _ (Permutation_sym L4) _ T4) as [l' [P' F']]. exists l'. split; auto.
    eapply Forall2_imp; [|exact (Forall2_compose _ _ _ _ _ _ _ _ F' N1)]. cbn. intros a b _ _ [n [(A1 & A2 & A3 & A4) (B1 & B2 & B3 & B4)]].
    unfold same_note. split; [congruence|]. split; [congruence|]. split; eapply goes_intro; eauto.
  - destruct (Forall2_perm _ _ _ _ _ (Permutation_sym L7) _ T5) as [l' [P' F']]. exists l'. split; auto.
    eapply Forall2_imp; [|exact (Forall2_compose _ _ _ _ _ _ _ _ F' N2)]. cbn. intros a b _ _ [n [(A1 & A2) (B1 & B2)]].
    split; [congruence|]. eapply goes_intro; eauto.
  - destruct (Forall2_perm _ _ _ _ _ (Permutation_sym L9) _ T6) as [l' [P' F']]. exists l'. split; auto.
    eapply Forall2_imp; [|exact (Forall2_compose _ _ _ _ _ _ _ _ F' N3)]. cbn. intros a b _ _ [n [(A1 & A2 & A3) (B1 & B2 & B3)]].
    split; [congruence|]. split; [congruence|]. eapply goes_intro; eauto.
  - apply (F2_sorted _ _ pn_end sn_end new (pi_notes ins)); auto; [apply new_mono| |].
    + intros n N. apply U. left. exists n. split; [apply (Permutation_in _ L4); auto|auto].
    + eapply Forall2_imp; [|exact N1]. cbn. tauto.
  - apply (F2_sorted _ _ fst fst new bs); auto; [apply new_mono| |].
    + intros b B. apply U. right. left. exists b. split; [apply (Permutation_in _ L7); auto|auto].
    + eapply Forall2_imp; [|exact N2]. cbn. tauto.
  - apply (F2_sorted _ _ (fun x => fst (fst x)) (fun x => fst (fst x)) new cs); auto; [apply new_mono| |].
    + intros c C. apply U. right. right. exists c. split; [apply (Permutation_in _ L9); auto|auto].
    + eapply Forall2_imp; [|exact N3]. cbn. tauto.
Qed.

Theorem song_round : exists sg', load_song keynum dc r file = Ok sg' /\
  (exists last, pm_load r evs' last = Ok (sg_pm sg') /\ 0 <= last < MAX_TICK) /\ same_song goes sg2 sg'.
Proof.
  unfold serialize in SE. fold p in SE. destruct (timing_track sg) as [t0|] eqn:TT; [|discriminate]. cbn [bind] in SE.
  destruct ((0 <=? dc) && (dc <? 16)) eqn:DC; [|discriminate].
  destruct (mapM (to_ticks p) (sg_insts sg)) as [ws|] eqn:MW; [|discriminate]. cbn [bind] in SE.
  destruct (forallb messages_fit ws) eqn:MF; [|discriminate]. apply Ok_inj in SE. cbn [app] in SE.
  apply mapM_inv in MW. assert (TK : Forall2 ticked (sg_insts sg) ws) by (eapply Forall2_imp; [|exact MW]; intros; apply to_ticks_inv; auto).
  rewrite forallb_forall in MF.
  assert (MS : forall w, In w ws -> midi_inst w /\ (forall n, In n (w_notes w) -> pn_start n < pn_end n) /\ struck_apart (w_notes w)).
  { intros w W. destruct (F2_in_r _ _ _ _ _ _ TK W) as [i [I T]]. eapply ticked_midi; eauto. }
  destruct (timing_spec sg f Fpos Near t0 TT TE) as (evs & lt & ET & SS & BD & LT0 & TI & TU & KI & TM & RK & RT & RL). fold p d in TI, KI, TM, RK, RT, RL. fold r in TI.
  (* the metadata side *)
  set (tr := map (view as_meta) file).
  assert (SST : StronglySorted (fun a b : Z * fmsg => fst a <= fst b) t0).
  { rewrite ET. assert (G : forall l, StronglySorted (fun a b : Z * fmsg => fst a <= fst b) l -> (forall e, In e l -> fst e <= lt) -> StronglySorted (fun a b : Z * fmsg => fst a <= fst b) (l ++ [(lt + 1, FMsg MEnd)])).
    { induction l as [|x l IH]; intros S1 H1; cbn; [repeat constructor|]. apply StronglySorted_inv in S1 as [S1 F1]. constructor; [apply IH; auto; intros; apply H1; right; auto|].
      rewrite Forall_forall in *. intros y Y. apply in_app_iff in Y as [Y|[<-|[]]]; auto. cbn. specialize (H1 x (or_introl eq_refl)). lia. }
    apply G; [apply view_sorted; auto|]. intros e K. apply view_in in K as [x [K ->]]. cbn. apply BD; auto. }
  assert (P0 : forall e, In e t0 -> 0 <= fst e).
  { intros e K. rewrite ET in K. apply in_app_iff in K as [K|[<-|[]]]; [|cbn; lia]. apply view_in in K as [x [K ->]]. cbn. apply BD; auto. }
  assert (TR : tr = view as_meta (f_delta 0 t0) :: map (fun t => view as_meta (f_delta 0 (view FMsg t))) (write_insts dc 0 ws)).
  { unfold tr. rewrite <- SE. cbn [map]. rewrite !map_map. reflexivity. }
  assert (EV0 : events_of (view as_meta (f_delta 0 t0)) = evs ++ [(lt + 1, M_Meta.MOther)]).
  { rewrite events_delta, ET, view_app. f_equal. rewrite view_view. apply view_id. auto. }
  assert (FOK : file_ok tr).
  { split.
    - intros t e T E. rewrite TR in T. destruct T as [<-|T].
      + apply view_in in E as [x [X ->]]. cbn. apply (f_delta_pos t0 0); auto.
      + apply in_map_iff in T as [t' [<- T]]. apply view_in in E as [x [X ->]]. cbn. apply write_insts_in in T as [w [k [W ->]]].
        destruct (write_pos (channel_of dc k w) w (proj1 (MS w W))) as [A [B _]].
        apply (f_delta_pos (view FMsg (write_track (channel_of dc k w) w)) 0); auto; [apply view_sorted; exact A|].
        intros y Y. apply view_in in Y as [z [Z0 ->]]. cbn. apply B; auto.
    - intros t1 rr dd us E K. rewrite TR in E. injection E as <- _. apply view_in in K as [x [X E]]. injection E as -> E.
      apply f_delta_snd in X as [k X]. rewrite ET in X. apply in_app_iff in X as [X|[X|[]]].
      + apply view_in in X as [y [Y E']]. injection E' as -> E'. rewrite E' in E. cbn in E. destruct y as [ky my]. cbn in *. subst my. eapply TU; eauto.
      + injection X as _ X. rewrite <- X in E. discriminate. }
  assert (NE : forall t, In t tr -> t <> []).
  { intros t T E. rewrite TR in T. subst t. destruct T as [T|T].
    - unfold view in T. apply map_eq_nil in T. apply f_delta_nil in T. rewrite ET in T. destruct evs; discriminate.
    - apply in_map_iff in T as [t' [E T]]. unfold view at 1 in E. apply map_eq_nil, f_delta_nil in E. unfold view in E. apply map_eq_nil in E. subst t'.
      apply write_insts_in in T as [w [k [W E]]]. destruct (write_pos (channel_of dc k w) w (proj1 (MS w W))) as [_ [_ N]]. apply N. symmetry. exact E. }
  assert (SIG : Forall (fun e => signature_ok keynum (snd e)) (view as_meta (f_delta 0 t0))).
  { apply Forall_forall. intros e K. apply view_in in K as [x [X ->]]. cbn [snd]. apply f_delta_snd in X as [k X]. rewrite ET in X. apply in_app_iff in X as [X|[X|[]]].
    - apply view_in in X as [y [Y E']]. injection E' as -> E'. rewrite E'. cbn [as_meta]. destruct y as [ky my]. cbn [snd] in *. destruct my; cbn; auto.
      + destruct (KI _ _ Y) as [z [Z1 Z2]]. exists (fst z). destruct SO as [SO1 _]. split; [apply HK; auto|]; apply SO1; auto.
      + destruct (TM _ _ _ Y) as [A B]. split; auto. destruct B as [->|[z [Z1 <-]]]; [lia|]. destruct SO as [_ SO2]. apply SO2; auto.
    - injection X as _ X. rewrite <- X. cbn. exact I. }
  rewrite TR in FOK, NE.
  destruct (from_file_prefix keynum r _ _ Rpos FOK NE) as [last [IL [L0 FF]]]. rewrite <- TR in IL.
  assert (LM : last < MAX_TICK).
  { destruct IL as [[t [e [T [E <-]]]] _]. unfold tr in T. apply in_map_iff in T as [t' [<- T]]. rewrite <- absolute_events, absolute_view in E. apply view_in in E as [x [X ->]]. cbn. eapply SHORT; eauto. }
  destruct (loaded keynum r _ _ last Rpos FOK NE) as (p' & d' & FF' & HT & MK & MT & ML); auto; [rewrite <- TR; auto|].
  rewrite FF' in FF. rewrite EV0 in *.
  assert (Tem : tempi_in (evs ++ [(lt + 1, M_Meta.MOther)]) = evs') by (unfold tempi_in; rewrite flat_map_app; cbn; rewrite app_nil_r; exact TI).
  assert (Kem : keys_in (evs ++ [(lt + 1, M_Meta.MOther)]) = keys_in evs) by (unfold keys_in; rewrite flat_map_app; cbn; rewrite app_nil_r; reflexivity).
  assert (Mem : times_in (evs ++ [(lt + 1, M_Meta.MOther)]) = times_in evs) by (unfold times_in; rewrite flat_map_app; cbn; rewrite app_nil_r; reflexivity).
  assert (Lem : lyrics_in (evs ++ [(lt + 1, M_Meta.MOther)]) = lyrics_in evs) by (unfold lyrics_in; rewrite flat_map_app; cbn; rewrite app_nil_r; reflexivity).
  rewrite Tem in *. rewrite Kem in MK. rewrite Mem in MT. rewrite Lem in ML.
  assert (SEC : forall k, seconds r (view as_meta (f_delta 0 t0)) k = new k) by (intros k; unfold seconds, new; rewrite EV0, Tem; reflexivity).
  destruct (pm_load_table r evs' last Rpos TE ltac:(lia)) as [p2 [PLD [_ TAB]]]. rewrite PLD in FF. cbn [bind] in FF.
  destruct (load_metadata keynum p2 _ _) as [d2|] eqn:LMd; [|discriminate]. cbn [bind] in FF. apply Ok_inj in FF. injection FF as -> ->.
  (* the instruments *)
  set (tracks := map (view as_msg) file).
  assert (WF : write_file dc (view as_msg t0) ws = Ok tracks).
  { unfold write_file. rewrite DC. f_equal. unfold tracks. rewrite <- SE. cbn [map]. rewrite view_delta_msg. f_equal. rewrite !map_map. apply map_ext. intros t. rewrite view_delta_msg, view_FMsg. reflexivity. }
  pose proof (all_loaded dc (view as_msg t0) ws tracks WF) as AL. cbv zeta in AL. set (s := load_file dc tracks) in *.
  specialize (AL ltac:(intros e K; apply view_in in K as [x [X ->]]; cbn [snd]; rewrite ET in X; apply in_app_iff in X as [X|[<-|[]]]; [apply view_in in X as [y [Y ->]]; cbn; auto|cbn; auto]) (fun w W => conj (proj1 (MS w W)) (proj2 (proj2 (MS w W))))).
  assert (US : forall w, In w ws -> forall k, uses w k -> 0 <= k /\ exists q, py_nth (p_times p2) k = Ok q /\ (q == new k)%Q).
  { intros w W k U. destruct (write_insts_of dc ws 0 w W) as [j J]. destruct (uses_in (channel_of dc j w) w k (proj1 (MS w W)) U) as [m K].
    destruct (write_pos (channel_of dc j w) w (proj1 (MS w W))) as [_ [B _]]. pose proof (B _ K) as B0. cbn in B0. split; auto.
    apply TAB. split; auto. destruct IL as [_ IL].
    apply (IL (view as_meta (f_delta 0 (view FMsg (write_track (channel_of dc j w) w)))) (k, M_Meta.MOther)).
    - rewrite TR. right. apply in_map_iff. eexists. split; [reflexivity|auto].
    - rewrite events_delta. apply view_in. exists (k, FMsg m). split; [|reflexivity]. apply view_in. exists (k, m). auto. }
  assert (HN : Forall2 (fun i e => exists w, In w ws /\ ticked i (cutw w) /\ loaded_as s (cutw w) (snd e)) (filter has_notes (sg_insts sg2)) (l_insts s)).
  { assert (FN : Forall2 (fun i w => In w ws /\ ticked i (cutw w)) (filter has_notes (sg_insts sg2)) (filter playing ws)).
    { assert (TKI : Forall2 (fun i w => In w ws /\ ticked i (cutw w)) (sg_insts sg2) ws).
      { eapply Forall2_imp; [|exact (F2_triple _ _ _ _ _ _ _ _ (proj2 (proj2 CUT)) TK)]. cbn. intros i2 w _ W [i (K1 & K2 & K3 & K4 & K5)]. split; auto. apply (ticked_cut i); auto. apply MS; auto. }
      clear - TKI. revert TKI. generalize ws at 1 3. intros W0. generalize (sg_insts sg2). induction ws as [|w l IH]; intros [|i li] F; inversion F as [|? ? ? ? [A B] F']; subst; [constructor|].
      cbn [filter]. assert (E : has_notes i = playing w). { destruct B as (_ & _ & _ & B & _). unfold has_notes, playing. unfold cutw in B. cbn [w_notes] in B. destruct (w_notes w); inversion B; auto. }
      rewrite E. destruct (playing w); [constructor; auto|]; apply IH; auto. }
    eapply Forall2_imp; [|exact (Forall2_compose _ _ _ _ _ _ _ _ FN AL)]. cbn. intros a b _ _ [w [[A B] C]]. eauto. }
  assert (OUT : exists is, mapM (fun e => to_seconds p2 s (snd e)) (l_insts s) = Ok is /\ Forall2 (same_inst goes) (filter has_notes (sg_insts sg2)) is).
  { clear - HN US MS Near Rpos TE. induction HN as [|i e li le [w [A [B C]]] F [is [E G]]]; [exists []; split; [reflexivity|constructor]|].
    destruct (to_seconds_ok p2 s i (cutw w) (snd e) B C (fun k U => US w A k (uses_cut w k (proj1 (proj2 (MS w A))) U))) as [o [O1 O2]]. exists (o :: is). split; [cbn; rewrite O1, E; reflexivity|constructor; auto]. }
  destruct OUT as [is [OI OS]].
  exists (mkSong p2 d2 is). split; [|split].
  - unfold load_song. fold tr. rewrite TR, FF'. cbn [bind fst snd]. cbv zeta. fold tracks. fold s. rewrite OI. reflexivity.
  - cbn [sg_pm]. exists last. split; [exact PLD|lia].
  - unfold same_song. cbn [sg_meta sg_insts]. rewrite (proj1 (proj2 CUT)). fold d. split; [|split; [|split]].
    + destruct RK as [l1 [K1 [K2 K3]]]. exists l1. split; auto. split; auto.
      eapply Forall2_imp; [|exact (Forall2_compose _ _ _ _ _ _ _ _ K2 MK)]. cbn. intros a b A _ [y [[Y1 Y2] [Y3 Y4]]]. rewrite SEC in Y4.
      split; [|eapply goes_intro; eauto]. destruct SO as [SO1 _]. specialize (SO1 a (Permutation_in _ K1 A)). specialize (HK _ _ SO1 Y2). congruence.
    + destruct RT as [l1 [K1 [K2 K3]]]. exists l1. split; auto. split; auto.
      eapply Forall2_imp; [|exact (Forall2_compose _ _ _ _ _ _ _ _ K2 MT)]. cbn. intros a b A _ [y [[Y1 Y2] [Y3 Y4]]]. rewrite SEC in Y4.
      split; [congruence|eapply goes_intro; eauto].
    + destruct RL as [l1 [K1 [K2 K3]]]. exists l1. split; auto. split; auto.
      eapply Forall2_imp; [|exact (Forall2_compose _ _ _ _ _ _ _ _ K2 ML)]. cbn. intros a b A _ [y [[Y1 Y2] [Y3 Y4]]]. rewrite SEC in Y4.
      split; [congruence|eapply goes_intro; eauto].
    + exact OS.
Qed.
End ROUND.
