From Verif Require Import PyBase L_Base M_Ticks S_Ticks L_Ticks M_Meta S_Meta.
From Coq Require Import Lia Lqa Sorted.
Open Scope Z_scope.

Lemma absolute_events_gen : forall l t, absolute t l = map (fun e => (fst e + t, snd e)) (events_of l).
Proof.
  induction l as [|[d m] l IH]; intros t; [reflexivity|]. cbn [absolute]. rewrite IH. unfold events_of. cbn [List.length seq map].
  f_equal; [unfold tick_of; cbn; f_equal; lia|]. rewrite <- seq_shift, !map_map. apply map_ext. intros i. cbn [nth fst snd].
  f_equal. unfold tick_of. cbn [firstn map fold_right fst]. lia.
Qed.
Lemma absolute_events : forall l, absolute 0 l = events_of l.
Proof.
  intros l. rewrite absolute_events_gen. rewrite <- (map_id (events_of l)) at 2. apply map_ext. intros [a b]. cbn. f_equal. lia.
Qed.
Lemma tempi_eq : forall l, tempi_of l = tempi_in l.
Proof. induction l as [|[t []] l IH]; cbn; rewrite ?IH; auto. Qed.

Lemma absolute_ge : forall l t, (forall e, In e l -> 0 <= fst e) -> forall e, In e (absolute t l) -> t <= fst e.
Proof.
  induction l as [|[d m] l IH]; intros t H e []; [subst; specialize (H (d, m) (or_introl eq_refl)); cbn in *; lia|].
  specialize (IH (d + t) (fun e K => H e (or_intror K)) e H0). specialize (H (d, m) (or_introl eq_refl)). cbn in *. lia.
Qed.
Lemma absolute_sorted : forall l t, (forall e, In e l -> 0 <= fst e) -> StronglySorted (fun a b : Z * meta => fst a <= fst b) (absolute t l).
Proof.
  induction l as [|[d m] l IH]; intros t H; cbn; constructor.
  - apply IH. intros; apply H; right; auto.
  - apply Forall_forall. intros e K. cbn [fst]. apply (absolute_ge l (d + t)); auto. intros; apply H; right; auto.
Qed.
Lemma absolute_snd : forall l t e, In e (absolute t l) -> exists d, In (d, snd e) l.
Proof.
  induction l as [|[d m] l IH]; intros t e []; [subst; exists d; left; auto|].
  destruct (IH _ _ H) as [d' K]. exists d'. right; auto.
Qed.
Lemma in_tempi : forall l k us, In (k, us) (tempi_in l) <-> In (k, MTempo us) l.
Proof.
  intros l k us. unfold tempi_in. rewrite in_flat_map. split.
  - intros [[t m] [H K]]. destruct m; cbn in K; try tauto. destruct K as [K|[]]. inversion K; subst. auto.
  - intros H. exists (k, MTempo us). split; auto. left; auto.
Qed.
Lemma flat_sorted : forall A (f : Z * meta -> list (Z * A)) l,
  (forall e x, In x (f e) -> fst x = fst e) -> (forall e, (List.length (f e) <= 1)%nat) ->
  StronglySorted (fun a b : Z * meta => fst a <= fst b) l -> StronglySorted (fun a b => fst a <= fst b) (flat_map f l).
Proof.
  intros A f l Hf Hl S. induction S as [|e l S IH F]; cbn; [constructor|].
  pose proof (Hl e) as L. pose proof (Hf e) as Fe. destruct (f e) as [|x [|y r]]; cbn in *; [auto| |lia].
  constructor; auto. apply Forall_forall. intros z Hz. apply in_flat_map in Hz. destruct Hz as [e' [H1 H2]].
  rewrite (Hf e' z H2), (Fe x (or_introl eq_refl)). rewrite Forall_forall in F. auto.
Qed.
Lemma tempo_events_of : forall t0, (forall e, In e t0 -> 0 <= fst e) -> (forall d us, In (d, MTempo us) t0 -> 0 < us) ->
  tempo_events (tempi_in (events_of t0)).
Proof.
  intros t0 H0 H1. rewrite <- absolute_events. split.
  - apply flat_sorted; [| |apply absolute_sorted; auto].
    + intros [t m] x K; destruct m; cbn in K; try tauto. destruct K as [<-|[]]; auto.
    + intros [t m]; destruct m; cbn; lia.
  - intros [k us] H. apply in_tempi in H. split; [apply (absolute_ge t0 0 H0 _ H)|].
    apply absolute_snd in H. destruct H as [d H]. cbn in *. eauto.
Qed.

Lemma fold_max_spec : forall l x, (In (fold_left Z.max l x) (x :: l)) /\ (forall y, In y (x :: l) -> y <= fold_left Z.max l x).
Proof.
  induction l as [|a l IH]; intros x; cbn [fold_left]; [split; [left; auto|intros y [<-|[]]; lia]|].
  destruct (IH (Z.max x a)) as [A B]. split.
  - destruct A as [A|A]; [|right; right; auto]. rewrite <- A. destruct (Z.max_spec x a) as [[_ ->]|[_ ->]]; [right; left; auto|left; auto].
  - intros y [<-|[<-|H]]; [| |apply B; right; auto]; (etransitivity; [|apply B; left; reflexivity]); lia.
Qed.
Lemma each_max_ok : forall abs, (forall t, In t abs -> t <> []) -> exists ms, each_max abs = Ok ms /\
  Forall2 (fun t m => In m (map fst t) /\ forall y, In y (map fst t) -> y <= m) abs ms.
Proof.
  induction abs as [|t abs IH]; intros H; [exists []; split; [reflexivity|constructor]|].
  destruct IH as [ms [E F]]; [intros; apply H; right; auto|]. specialize (H t (or_introl eq_refl)).
  cbn [each_max]. destruct (map fst t) as [|x r] eqn:M; [destruct t; [congruence|discriminate]|]. cbn [py_max bind].
  rewrite E. cbn [bind]. eexists. split; [reflexivity|]. constructor; auto. rewrite M. apply fold_max_spec.
Qed.
Lemma each_max_err : forall abs, In [] abs -> each_max abs = Err ValueError.
Proof.
  induction abs as [|t abs IH]; intros []; cbn [each_max].
  - subst. reflexivity.
  - rewrite (IH H). destruct (py_max (map fst t)) as [m|e] eqn:E; [reflexivity|]. cbn. destruct (map fst t); [inversion E; reflexivity|discriminate].
Qed.

Lemma F2_in_l : forall A B (R : A -> B -> Prop) l r a, Forall2 R l r -> In a l -> exists b, In b r /\ R a b.
Proof. intros A B R l r a F. induction F; intros []; [subst; exists y; split; auto; left; auto|]. destruct (IHF H0) as [b [? ?]]. exists b; split; auto. right; auto. Qed.
Lemma F2_in_r : forall A B (R : A -> B -> Prop) l r b, Forall2 R l r -> In b r -> exists a, In a l /\ R a b.
Proof. intros A B R l r b F. induction F; intros []; [subst; exists x; split; auto; left; auto|]. destruct (IHF H0) as [a [? ?]]. exists a; split; auto. right; auto. Qed.

Lemma last_ok : forall tracks, tracks <> [] -> (forall t, In t tracks -> t <> []) ->
  exists ms last, each_max (map (absolute 0) tracks) = Ok ms /\ py_max ms = Ok last /\ is_last_tick tracks last.
Proof.
  intros tracks NE H. destruct (each_max_ok (map (absolute 0) tracks)) as [ms [E F]].
  { intros t K. apply in_map_iff in K. destruct K as [x [<- K]]. specialize (H x K). destruct x as [|[d m] x]; [congruence|discriminate]. }
  exists ms. destruct ms as [|x r]; [inversion F; destruct tracks; [congruence|discriminate]|].
  exists (fold_left Z.max r x). split; auto. split; auto. destruct (fold_max_spec r x) as [A B]. split.
  - destruct (F2_in_r _ _ _ _ _ _ F A) as [t [K [M _]]]. apply in_map_iff in K. destruct K as [tr [<- K]].
    apply in_map_iff in M. destruct M as [e [M1 M2]]. exists tr, e. rewrite <- absolute_events. auto.
  - intros t e K M. rewrite <- absolute_events in M. destruct (F2_in_l _ _ _ _ _ (absolute 0 t) F) as [m [P [_ Q]]]; [apply in_map; auto|].
    specialize (Q (fst e) (in_map fst _ _ M)). specialize (B m P). lia.
Qed.

(** the loop *)
Definition grown (R : Z -> Q -> Prop) (keynum : string -> res Z) (l : list (Z * meta)) (d d' : metadata) : Prop :=
  exists ks ts ls, md_keys d' = md_keys d ++ ks /\ md_times d' = md_times d ++ ts /\ md_lyrics d' = md_lyrics d ++ ls /\
    Forall2 (fun a b => keynum (snd a) = Ok (fst b) /\ R (fst a) (snd b)) (keys_in l) ks /\
    Forall2 (fun a b => snd a = fst b /\ R (fst a) (snd b)) (times_in l) ts /\
    Forall2 (fun a b => snd a = fst b /\ R (fst a) (snd b)) (lyrics_in l) ls.

Lemma py_nth_ok : forall (a : list Q) k q, 0 <= k -> nth_error a (Z.to_nat k) = Some q -> py_nth a k = Ok q.
Proof. intros a k q H E. unfold py_nth. destruct (k <? 0) eqn:C; [apply Z.ltb_lt in C; lia|]. rewrite C, E. reflexivity. Qed.

Lemma metadata_ok : forall (R : Z -> Q -> Prop) keynum p l d,
  (forall e, In e l -> exists q, py_nth (p_times p) (fst e) = Ok q /\ R (fst e) q) ->
  Forall (fun e => signature_ok keynum (snd e)) l ->
  exists d', load_metadata keynum p d l = Ok d' /\ grown R keynum l d d'.
Proof.
  intros R keynum p l. induction l as [|[t m] l IH]; intros d H F.
  - exists d. split; [reflexivity|]. exists [], [], []. rewrite !app_nil_r. repeat split; constructor.
  - inversion F as [|? ? S1 F']; subst. cbn [snd] in S1. destruct (H (t, m) (or_introl eq_refl)) as [q [Eq Rq]]. cbn [fst] in *.
    cbn [load_metadata meta_step snd fst]. specialize (fun d => IH d (fun e K => H e (or_intror K)) F').
    destruct m as [us|s|n k|s|]; cbn [signature_ok] in S1.
    + destruct (IH d) as [d' [E G]]. exists d'. split; [exact E|exact G].
    + destruct S1 as [k [Ek Hk]]. unfold meta_step; cbn [snd fst]. rewrite Ek; cbn [bind]. rewrite Eq; cbn [bind].
      assert (C : (0 <=? k) && (k <? 24) = true) by (apply Bool.andb_true_iff; split; [apply Z.leb_le|apply Z.ltb_lt]; lia). rewrite C. cbn [bind].
      destruct (IH (mkMeta (md_keys d ++ [(k, q)]) (md_times d) (md_lyrics d))) as [d' [E (ks & ts & ls & A1 & A2 & A3 & B1 & B2 & B3)]].
      exists d'. split; [exact E|]. exists ((k, q) :: ks), ts, ls. cbn [md_keys md_times md_lyrics] in *. rewrite A1, <- app_assoc. repeat split; auto.
      unfold keys_in. cbn [flat_map snd fst app]. constructor; auto.
    + destruct S1 as [Hn Hk]. unfold meta_step; cbn [snd fst]. rewrite Eq; cbn [bind].
      assert (C : (0 <? n) && (0 <? k) = true) by (apply Bool.andb_true_iff; split; apply Z.ltb_lt; lia). rewrite C. cbn [bind].
      destruct (IH (mkMeta (md_keys d) (md_times d ++ [(n, k, q)]) (md_lyrics d))) as [d' [E (ks & ts & ls & A1 & A2 & A3 & B1 & B2 & B3)]].
      exists d'. split; [exact E|]. exists ks, ((n, k, q) :: ts), ls. cbn [md_keys md_times md_lyrics] in *. rewrite A2, <- app_assoc. repeat split; auto.
      unfold times_in. cbn [flat_map snd fst app]. constructor; auto.
    + unfold meta_step; cbn [snd fst]. rewrite Eq; cbn [bind].
      destruct (IH (mkMeta (md_keys d) (md_times d) (md_lyrics d ++ [(s, q)]))) as [d' [E (ks & ts & ls & A1 & A2 & A3 & B1 & B2 & B3)]].
      exists d'. split; [exact E|]. exists ks, ts, ((s, q) :: ls). cbn [md_keys md_times md_lyrics] in *. rewrite A3, <- app_assoc. repeat split; auto.
      unfold lyrics_in. cbn [flat_map snd fst app]. constructor; auto.
    + destruct (IH d) as [d' [E G]]. exists d'. split; [exact E|exact G].
Qed.

Lemma metadata_err : forall keynum p l d, (forall s e, keynum s = Err e -> e = ValueError) ->
  (forall e, In e l -> exists q, py_nth (p_times p) (fst e) = Ok q) ->
  Exists (fun e => ~ signature_ok keynum (snd e)) l ->
  load_metadata keynum p d l = Err ValueError.
Proof.
  intros keynum p l d HK. revert d. induction l as [|[t m] l IH]; intros d H X; [inversion X|].
  destruct (H (t, m) (or_introl eq_refl)) as [q Eq]. cbn [fst] in Eq.
  assert (IH' : Exists (fun e => ~ signature_ok keynum (snd e)) l -> forall d, load_metadata keynum p d l = Err ValueError).
  { intros X' d0. apply IH; auto. intros; apply H; right; auto. }
  assert (X' : ~ signature_ok keynum m \/ Exists (fun e => ~ signature_ok keynum (snd e)) l) by (inversion X; auto). clear X IH.
  cbn [load_metadata]. unfold meta_step. cbn [snd fst].
  destruct m as [us|s|n k|s|]; cbn [signature_ok] in X'.
  - cbn [bind]. apply IH'. tauto.
  - destruct (keynum s) as [k|e] eqn:Ek; cbn [bind]; [|rewrite (HK s e Ek); reflexivity]. rewrite Eq; cbn [bind].
    destruct ((0 <=? k) && (k <? 24)) eqn:C; cbn [bind]; [|reflexivity]. apply IH'. destruct X' as [X'|X']; auto. exfalso. apply X'.
    exists k. apply Bool.andb_true_iff in C. destruct C as [C1 C2]. apply Z.leb_le in C1. apply Z.ltb_lt in C2. auto.
  - rewrite Eq; cbn [bind]. destruct ((0 <? n) && (0 <? k)) eqn:C; cbn [bind]; [|reflexivity]. apply IH'. destruct X' as [X'|X']; auto. exfalso. apply X'.
    apply Bool.andb_true_iff in C. destruct C as [C1 C2]. apply Z.ltb_lt in C1. apply Z.ltb_lt in C2. auto.
  - rewrite Eq; cbn [bind]. apply IH'. tauto.
  - cbn [bind]. apply IH'. tauto.
Qed.

Lemma pm_load_table : forall r evs last, 0 < r -> tempo_events evs -> 0 <= last < MAX_TICK ->
  exists p, pm_load r evs last = Ok p /\ has_ticks p (tick_length r evs) /\
  forall k, 0 <= k <= last -> exists q, py_nth (p_times p) k = Ok q /\ (q == sum_to (tick_length r evs) k)%Q.
Proof.
  intros r evs last Hr TE H. unfold pm_load. destruct (load_ok r evs Hr TE) as [m [E [V [F L]]]]. rewrite E. cbn [bind].
  destruct (Z.ltb_spec MAX_TICK (last + 1)); [lia|]. destruct (update_table_ok m (last + 1) V ltac:(lia)) as [a [Ea [La Ga]]].
  rewrite Ea. cbn [bind]. eexists. split; [reflexivity|]. split.
  - apply (has_ticks_of m); auto. split; [reflexivity|]. cbn [p_times]. split; [lia|]. rewrite La.
    replace (Z.max (last + 1) (last_tick m) + 1 - 1) with (Z.max (last + 1) (last_tick m)) by lia. auto.
  - intros k Hk. destruct (Ga k ltac:(lia)) as [q [E1 E2]]. exists q. cbn [p_times]. split; [apply py_nth_ok; auto; lia|]. rewrite E2. apply T_ext; auto.
Qed.

Lemma from_file_prefix : forall keynum r t0 rest, 0 < r -> file_ok (t0 :: rest) -> (forall t, In t (t0 :: rest) -> t <> []) ->
  exists last, is_last_tick (t0 :: rest) last /\ 0 <= last /\
   from_file keynum r (t0 :: rest) =
    bind (pm_load r (tempi_in (events_of t0)) last) (fun p => bind (load_metadata keynum p (mkMeta [] [] []) (events_of t0)) (fun d => Ok (p, d))).
Proof.
  intros keynum r t0 rest Hr [H0 H1] NE. destruct (last_ok (t0 :: rest)) as (ms & last & E1 & E2 & IL); [discriminate|auto|].
  exists last. split; auto. split.
  - destruct IL as [(t & e & A & B & <-) _]. rewrite <- absolute_events in B. apply (absolute_ge t 0) in B; auto. intros; eapply H0; eauto.
  - unfold from_file. cbv zeta. cbn [map] in *. rewrite E1. destruct (load_ok r (tempi_in (events_of t0)) Hr) as [m [E _]].
    { apply tempo_events_of; [exact (fun e He => H0 t0 e (or_introl eq_refl) He)|intros; eapply H1; eauto]. }
    rewrite absolute_events, tempi_eq, E. cbn [bind]. rewrite E2. reflexivity.
Qed.
Lemma last_unique : forall tr a b, is_last_tick tr a -> is_last_tick tr b -> a = b.
Proof. intros tr a b [(t & e & A & B & <-) C] [(t' & e' & A' & B' & <-) C']. specialize (C t' e' A' B'). specialize (C' t e A B). lia. Qed.

Lemma loaded : forall keynum r t0 rest last, 0 < r -> file_ok (t0 :: rest) -> (forall t, In t (t0 :: rest) -> t <> []) ->
  is_last_tick (t0 :: rest) last -> last < MAX_TICK -> Forall (fun e => signature_ok keynum (snd e)) t0 ->
  exists p d, from_file keynum r (t0 :: rest) = Ok (p, d) /\ has_ticks p (tick_length r (tempi_in (events_of t0))) /\
    Forall2 (fun a b => keynum (snd a) = Ok (fst b) /\ (snd b == seconds r t0 (fst a))%Q) (keys_in (events_of t0)) (md_keys d) /\
    Forall2 (fun a b => snd a = fst b /\ (snd b == seconds r t0 (fst a))%Q) (times_in (events_of t0)) (md_times d) /\
    Forall2 (fun a b => snd a = fst b /\ (snd b == seconds r t0 (fst a))%Q) (lyrics_in (events_of t0)) (md_lyrics d).
Proof.
  intros keynum r t0 rest last Hr FO NE IL LM SO. destruct (from_file_prefix keynum r t0 rest Hr FO NE) as (last' & IL' & P & E).
  assert (last' = last) by (eapply last_unique; eauto). subst last'. rewrite E.
  assert (TE : tempo_events (tempi_in (events_of t0))).
  { destruct FO as [H0 H1]. apply tempo_events_of; [exact (fun e He => H0 t0 e (or_introl eq_refl) He)|intros; eapply H1; eauto]. }
  destruct (pm_load_table r (tempi_in (events_of t0)) last Hr TE ltac:(lia)) as (p & Ep & HT & TT). rewrite Ep. cbn [bind].
  destruct (metadata_ok (fun k q => (q == seconds r t0 k)%Q) keynum p (events_of t0) (mkMeta [] [] [])) as (d & Ed & ks & ts & ls & A1 & A2 & A3 & B1 & B2 & B3).
  - intros e He. destruct (TT (fst e)) as [q [Eq Rq]]; [|exists q; split; auto]. destruct IL as [_ IL]. split; [|apply (IL t0); auto; left; auto].
    rewrite <- absolute_events in He. apply (absolute_ge t0 0) in He; auto. destruct FO as [H0 _]. exact (fun e He => H0 t0 e (or_introl eq_refl) He).
  - apply Forall_forall. intros e He. rewrite <- absolute_events in He. apply absolute_snd in He. destruct He as [dd He].
    rewrite Forall_forall in SO. apply (SO _ He).
  - rewrite Ed. cbn [bind]. exists p, d. cbn [md_keys md_times md_lyrics app] in *. rewrite A1, A2, A3. auto.
Qed.

Lemma rejected : forall keynum r tracks, 0 < r -> file_ok tracks -> (forall s e, keynum s = Err e -> e = ValueError) ->
  (tracks = [] -> from_file keynum r tracks = Err IndexError) /\
  (tracks <> [] -> In [] tracks -> from_file keynum r tracks = Err ValueError) /\
  (forall last, ~ In [] tracks -> is_last_tick tracks last -> MAX_TICK <= last -> from_file keynum r tracks = Err ValueError) /\
  (forall t0 rest last, tracks = t0 :: rest -> ~ In [] tracks -> is_last_tick tracks last -> last < MAX_TICK ->
     Exists (fun e => ~ signature_ok keynum (snd e)) t0 -> from_file keynum r tracks = Err ValueError).
Proof.
  intros keynum r tracks Hr FO HK. split; [intros ->; reflexivity|]. split; [|split].
  - intros NE H. destruct tracks as [|t0 rest]; [congruence|]. unfold from_file. cbv zeta. cbn [map].
    destruct FO as [H0 H1]. destruct (load_ok r (tempi_in (events_of t0)) Hr) as [m [E _]].
    { apply tempo_events_of; [exact (fun e He => H0 t0 e (or_introl eq_refl) He)|intros; eapply H1; eauto]. }
    rewrite absolute_events, tempi_eq, E. cbn [bind]. rewrite <- (absolute_events t0). rewrite (each_max_err (absolute 0 t0 :: map (absolute 0) rest)); [reflexivity|].
    change (In (absolute 0 []) (map (absolute 0) (t0 :: rest))). apply in_map; auto.
  - intros last NI IL LM. destruct tracks as [|t0 rest]; [destruct IL as [(t & e & [] & _) _]|].
    destruct (from_file_prefix keynum r t0 rest Hr FO) as (last' & IL' & P & E); [intros t Ht ->; auto|].
    assert (last' = last) by (eapply last_unique; eauto). subst last'. rewrite E. rewrite pm_load_reject; auto.
    destruct FO as [H0 H1]. apply tempo_events_of; [exact (fun e He => H0 t0 e (or_introl eq_refl) He)|intros; eapply H1; eauto].
  - intros t0 rest last -> NI IL LM X. destruct (from_file_prefix keynum r t0 rest Hr FO) as (last' & IL' & P & E); [intros t Ht ->; auto|].
    assert (last' = last) by (eapply last_unique; eauto). subst last'. rewrite E.
    assert (TE : tempo_events (tempi_in (events_of t0))).
    { destruct FO as [H0 H1]. apply tempo_events_of; [exact (fun e He => H0 t0 e (or_introl eq_refl) He)|intros; eapply H1; eauto]. }
    destruct (pm_load_table r (tempi_in (events_of t0)) last Hr TE ltac:(lia)) as (p & Ep & HT & TT). rewrite Ep. cbn [bind].
    rewrite metadata_err; auto.
    + intros e He. destruct (TT (fst e)) as [q [Eq Rq]]; [|exists q; auto]. destruct IL as [_ IL]. split; [|apply (IL t0); auto; left; auto].
      rewrite <- absolute_events in He. apply (absolute_ge t0 0) in He; auto. destruct FO as [H0 _]. exact (fun e He => H0 t0 e (or_introl eq_refl) He).
    + clear -X. rewrite <- absolute_events. revert X. generalize 0 at 1. induction t0 as [|[d m] t0 IH]; intros z X; [inversion X|].
      cbn [absolute]. inversion X; subst; [left; auto|right; apply IH; auto].
Qed.

Lemma sum_to_le : forall r evs j k, 0 < r -> tempo_events evs -> 0 <= j <= k -> (sum_to (tick_length r evs) j <= sum_to (tick_length r evs) k)%Q.
Proof.
  intros r evs j k Hr TE H. destruct (Z.eq_dec j k) as [->|N]; [lra|]. apply Qlt_le_weak. apply C36c; auto. lia.
Qed.
Lemma out_sorted : forall A B (R : Z * A -> B * Q -> Prop) (f : Z -> Q) l out,
  (forall j k, 0 <= j <= k -> (f j <= f k)%Q) -> (forall a b, R a b -> (snd b == f (fst a))%Q) ->
  (forall a, In a l -> 0 <= fst a) -> StronglySorted (fun a b => fst a <= fst b) l -> Forall2 R l out ->
  StronglySorted (fun a b => (snd a <= snd b)%Q) out.
Proof.
  intros A B R f l out Mf HR H0 S F. induction F as [|a b l out Hab F IH]; [constructor|].
  inversion S as [|? ? S' FS]; subst. constructor; [apply IH; auto; intros; apply H0; right; auto|].
  apply Forall_forall. intros y Hy. destruct (F2_in_r _ _ _ _ _ _ F Hy) as [x [Hx Rx]].
  rewrite (HR _ _ Hab), (HR _ _ Rx). apply Mf. rewrite Forall_forall in FS. split; [apply H0; left; auto|auto].
Qed.

Lemma loaded_full : forall keynum r t0 rest last, 0 < r -> file_ok (t0 :: rest) -> ~ In [] (t0 :: rest) ->
  is_last_tick (t0 :: rest) last -> last < MAX_TICK -> Forall (fun e => signature_ok keynum (snd e)) t0 ->
  exists p d, from_file keynum r (t0 :: rest) = Ok (p, d) /\
    (forall k, 0 <= k < MAX_TICK -> exists t, fst (tick_to_time p k) = Ok t /\ (t == seconds r t0 k)%Q) /\
    Forall2 (fun a b => keynum (snd a) = Ok (fst b) /\ (snd b == seconds r t0 (fst a))%Q) (keys_in (events_of t0)) (md_keys d) /\
    Forall2 (fun a b => snd a = fst b /\ (snd b == seconds r t0 (fst a))%Q) (times_in (events_of t0)) (md_times d) /\
    Forall2 (fun a b => snd a = fst b /\ (snd b == seconds r t0 (fst a))%Q) (lyrics_in (events_of t0)) (md_lyrics d) /\
    StronglySorted (fun a b => (snd a <= snd b)%Q) (md_keys d) /\ StronglySorted (fun a b => (snd a <= snd b)%Q) (md_times d) /\
    StronglySorted (fun a b => (snd a <= snd b)%Q) (md_lyrics d).
Proof.
  intros keynum r t0 rest last Hr FO NE IL LM SO.
  destruct (loaded keynum r t0 rest last) as (p & d & E & HT & A & B & C); auto; [intros t Ht ->; auto|].
  assert (G0 : forall e, In e t0 -> 0 <= fst e) by (destruct FO as [H0 _]; exact (fun e He => H0 t0 e (or_introl eq_refl) He)).
  assert (TE : tempo_events (tempi_in (events_of t0))).
  { apply tempo_events_of; auto. destruct FO as [H0 H1]. intros; eapply H1; eauto. }
  assert (SE : StronglySorted (fun a b : Z * meta => fst a <= fst b) (events_of t0)) by (rewrite <- absolute_events; apply absolute_sorted; auto).
  assert (PE : forall e, In e (events_of t0) -> 0 <= fst e) by (intros e He; rewrite <- absolute_events in He; apply (absolute_ge t0 0); auto).
  exists p, d. split; auto. split.
  { intros k Hk. destruct (HT []) as [T _]. destruct (T k ltac:(lia)) as [_ T2]. destruct T2 as [t [E1 E2]]; [lia|]. exists t. auto. }
  split; auto. split; auto. split; auto.
  assert (MS : forall j k, 0 <= j <= k -> (seconds r t0 j <= seconds r t0 k)%Q) by (intros; apply sum_to_le; auto).
  split; [|split].
  - eapply out_sorted with (R := fun a b => keynum (snd a) = Ok (fst b) /\ (snd b == seconds r t0 (fst a))%Q); [exact MS|intros a b [_ K]; exact K| | |exact A].
    + intros x Hx. apply in_flat_map in Hx. destruct Hx as [[t m] [H1 H2]]. destruct m; cbn in H2; try tauto. destruct H2 as [<-|[]]. apply (PE _ H1).
    + apply flat_sorted; auto; [intros [t m] x K; destruct m; cbn in K; try tauto; destruct K as [<-|[]]; auto|intros [t m]; destruct m; cbn; lia].
  - eapply out_sorted with (R := fun a b => snd a = fst b /\ (snd b == seconds r t0 (fst a))%Q); [exact MS|intros a b [_ K]; exact K| | |exact B].
    + intros x Hx. apply in_flat_map in Hx. destruct Hx as [[t m] [H1 H2]]. destruct m; cbn in H2; try tauto. destruct H2 as [<-|[]]. apply (PE _ H1).
    + apply flat_sorted; auto; [intros [t m] x K; destruct m; cbn in K; try tauto; destruct K as [<-|[]]; auto|intros [t m]; destruct m; cbn; lia].
  - eapply out_sorted with (R := fun a b => snd a = fst b /\ (snd b == seconds r t0 (fst a))%Q); [exact MS|intros a b [_ K]; exact K| | |exact C].
    + intros x Hx. apply in_flat_map in Hx. destruct Hx as [[t m] [H1 H2]]. destruct m; cbn in H2; try tauto. destruct H2 as [<-|[]]. apply (PE _ H1).
    + apply flat_sorted; auto; [intros [t m] x K; destruct m; cbn in K; try tauto; destruct K as [<-|[]]; auto|intros [t m]; destruct m; cbn; lia].
Qed.
