(** The tempo map in double precision. *)
From Coq Require Import QArith Qabs Qround Qpower Qfield Lia Lqa Sorted.
From Verif Require Import PyBase L_Base M_Note L_Note L_Note2 M_Ticks S_Ticks L_Ticks M_Float L_Float L_Float2.
Open Scope Z_scope.

Definition sv (r t : Z) : Q := fl (60 / fl (fl (60000000 / inject_Z t) * inject_Z r)).
Lemma sv_ok : forall t r, 0 < t -> 0 < r -> scale_f t r = Ok (sv r t) /\ (0 < sv r t)%Q.
Proof. intros t r T R. destruct (scale_f_ok t r T R) as [s [E [S0 [S1 _]]]]. unfold sv. rewrite E, S1 in *. auto. Qed.
Lemma sv_eq : forall r a b, (sv r a == sv r b)%Q -> sv r a = sv r b.
Proof. intros r a b E. unfold sv in *. apply Qred_complete in E. rewrite !fl_red in E. exact E. Qed.
Lemma default_sv : forall r, 0 < r -> scale_bpm_f 120 r = Ok (sv r 500000).
Proof.
  intros r R. pose proof (Zq r R) as RQ. unfold scale_bpm_f, sv.
  assert (X : (60000000 / inject_Z 500000 == inject_Z 120)%Q) by reflexivity.
  assert (Y : (fl (60000000 / inject_Z 500000) == 120)%Q).
  { assert (X0 : (0 <= 60000000 / inject_Z 500000)%Q) by (rewrite X; unfold Qle; simpl; lia). rewrite (fl_m0 _ _ X0 X). rewrite fl_Z by lia. reflexivity. }
  assert (W : fl (120 * inject_Z r) = fl (fl (60000000 / inject_Z 500000) * inject_Z r)).
  { apply fl_m0; [apply Qmult_le_0_compat; lra|]. rewrite Y. reflexivity. }
  rewrite <- W. assert (G : (0 < fl (120 * inject_Z r))%Q) by (apply fl_gt0; apply Qmult_lt_0_compat; lra).
  destruct (Qeq_bool _ 0) eqn:Z0; [apply Qeq_bool_iff in Z0; lra|]. reflexivity.
Qed.

Definition linv (r : Z) (pre : list (Z * Z)) (sc : list (Z * Q)) (b : Z) : Prop :=
  (exists s l, sc = (0, s) :: l) /\ msorted sc /\ (forall e, In e sc -> fst e <= b) /\ (forall e, In e sc -> exists t, snd e = sv r t /\ (t = 500000 \/ exists k, In (k, t) pre)) /\
  (forall j, 0 <= j -> at_tick sc j 0%Q = sv r (at_tick pre j 500000)).
Lemma at_tick_snoc : forall A (l : list (Z * A)) k x j d, at_tick (l ++ [(k, x)]) j d = if k <=? j then x else at_tick l j d.
Proof. intros. rewrite at_tick_app. reflexivity. Qed.
Lemma at_tick_last : forall A (l : list (Z * A)) k x j d, k <= j -> at_tick (l ++ [(k, x)]) j d = x.
Proof. intros. rewrite at_tick_snoc. destruct (Z.leb_spec k j); [reflexivity|lia]. Qed.
Lemma msorted_snoc : forall A (l : list (Z * A)) k x, msorted l -> (forall e, In e l -> fst e <= k) -> msorted (l ++ [(k, x)]).
Proof.
  intros A l k x S0 H. induction l as [|y l IH]; simpl; [repeat constructor|]. apply StronglySorted_inv in S0 as [S1 S2].
  constructor; [apply IH; auto; intros; apply H; right; auto|]. apply Forall_app. split; auto. constructor; [apply H; left; auto|constructor].
Qed.
Lemma loop_f : forall r evs pre sc b, 0 < r -> linv r pre sc b -> 0 <= b -> (forall e, In e evs -> b <= fst e /\ 0 < snd e) ->
  (forall e, In e pre -> 0 <= fst e <= b) -> msorted evs ->
  exists m b', tempo_loop_f r evs sc = Ok m /\ linv r (pre ++ evs) m b'.
Proof.
  intros r. induction evs as [|[k t] evs IH]; intros pre sc b R I B0 E PB MS.
  - exists sc, b. rewrite app_nil_r. split; auto.
  - cbn [tempo_loop_f]. destruct (E (k, t) (or_introl eq_refl)) as [E1 E2]. cbn [fst snd] in E1, E2.
    destruct (sv_ok t r E2 R) as [SO SP]. rewrite SO. cbn [bind]. apply StronglySorted_inv in MS as [MS MF]. rewrite Forall_forall in MF.
    assert (E' : forall e, In e evs -> k <= fst e /\ 0 < snd e) by (intros e He; split; [apply (MF e He)|apply E; right; auto]).
    assert (AP : (pre ++ [(k, t)]) ++ evs = pre ++ (k, t) :: evs) by (rewrite <- app_assoc; reflexivity).
    assert (PB' : forall e, In e (pre ++ [(k, t)]) -> 0 <= fst e <= k).
    { intros e He. apply in_app_iff in He as [He|[<-|[]]]; [specialize (PB e He); lia|cbn; lia]. }
    destruct I as [[s [l I1]] [I2 [I3 [I4 I5]]]].
    destruct (Z.eqb_spec k 0) as [->|NK].
    + rewrite <- AP. apply IH with (b := 0); auto; try lia.
      unfold linv. split; [eauto|]. split; [repeat constructor|]. split; [intros e [<-|[]]; cbn; lia|].
      split; [intros e [<-|[]]; exists t; split; auto; right; exists 0; apply in_app_iff; simpl; auto|].
      intros j Hj. unfold at_tick at 1. cbn [fold_left fst snd]. destruct (Z.leb_spec 0 j); [|lia].
      rewrite at_tick_last by auto. reflexivity.
    + destruct (exists_last (l := sc)) as [ini [[kl vl] L]]; [rewrite I1; discriminate|].
      assert (RV : rev sc = (kl, vl) :: rev ini) by (rewrite L, rev_app_distr; reflexivity). rewrite RV.
      assert (KL : kl <= b) by (apply (I3 (kl, vl)); rewrite L; apply in_app_iff; simpl; auto).
      assert (VL : forall j, b <= j -> sv r (at_tick pre j 500000) = vl).
      { intros j Hj. rewrite <- I5 by lia. rewrite L. apply at_tick_last. lia. }
      destruct (Qeq_bool (sv r t) vl) eqn:Q0.
      * apply Qeq_bool_iff in Q0. rewrite <- AP. apply IH with (b := k); auto; try lia.
        unfold linv. split; [eauto|]. split; auto. split; [intros e He; specialize (I3 e He); lia|].
        split; [intros e He; destruct (I4 e He) as [t' [X1 [X2|[k' X2]]]]; exists t'; split; auto; right; exists k'; apply in_app_iff; auto|].
        intros j Hj. rewrite at_tick_snoc. destruct (Z.leb_spec k j) as [H|H]; [|apply I5; auto].
        rewrite I5 by auto. apply sv_eq. rewrite (VL j) by lia. rewrite Q0. reflexivity.
      * rewrite <- AP. apply IH with (b := k); auto; try lia.
        unfold linv. split; [rewrite I1; cbn [app]; eauto|]. split; [apply msorted_snoc; auto; intros e He; specialize (I3 e He); lia|].
        split; [intros e He; apply in_app_iff in He as [He|[<-|[]]]; [specialize (I3 e He); lia|cbn; lia]|].
        split. { intros e He. apply in_app_iff in He as [He|[<-|[]]].
          - destruct (I4 e He) as [t' [X1 [X2|[k' X2]]]]; exists t'; split; auto; right; exists k'; apply in_app_iff; auto.
          - exists t. split; auto. right. exists k. apply in_app_iff; simpl; auto. }
        intros j Hj. rewrite !at_tick_snoc. destruct (k <=? j); auto.
Qed.
Lemma load_tempo_f_ok : forall r evs, 0 < r -> tempo_events evs -> exists m b, load_tempo_f r evs = Ok m /\ linv r evs m b.
Proof.
  intros r evs R [T1 T2]. unfold load_tempo_f. rewrite (default_sv r R). cbn [bind].
  destruct (loop_f r evs [] [(0, sv r 500000)] 0 R) as [m [b [E I]]]; auto; try lia.
  - unfold linv. split; [eauto|]. split; [repeat constructor|]. split; [intros e [<-|[]]; cbn; lia|].
    split; [intros e [<-|[]]; exists 500000; split; auto|]. intros j Hj. unfold at_tick. cbn [fold_left fst snd]. destruct (Z.leb_spec 0 j); [reflexivity|lia].
  - intros e [].
  - exists m, b. split; auto.
Qed.
Lemma at_tick_map : forall A B (f : A -> B) (l : list (Z * A)) j d, at_tick (map (fun e => (fst e, f (snd e))) l) j (f d) = f (at_tick l j d).
Proof.
  intros A B f. induction l as [|[k x] l IH]; intros j d; [reflexivity|]. unfold at_tick in *. cbn [map fold_left fst snd].
  destruct (k <=? j); apply IH.
Qed.
Lemma at_tick_head : forall A (l : list (Z * A)) x j d d', 0 <= j -> at_tick ((0, x) :: l) j d = at_tick ((0, x) :: l) j d'.
Proof. intros. unfold at_tick. cbn [fold_left fst snd]. destruct (Z.leb_spec 0 j); [reflexivity|lia]. Qed.

Definition bounded (lo : Z) (evs : list (Z * Z)) : Prop := forall e, In e evs -> lo < snd e <= 2 ^ 48.
Lemma at_tick_bounded : forall lo evs j, bounded lo evs -> lo < 500000 -> lo < at_tick evs j 500000 <= 2 ^ 48.
Proof. intros lo evs j B L. destruct (at_tick_In _ evs j 500000) as [->|[e [H1 ->]]]; [lia|apply B; auto]. Qed.
Lemma resave_ok : forall r evs n, 0 < r -> tempo_events evs -> 0 <= n -> bounded (n + 1) evs -> n + 1 < 500000 -> exists evs', resave r evs = Ok evs' /\
  tempo_events evs' /\ bounded n evs' /\ (exists s l, evs' = (0, s) :: l) /\
  forall j, 0 <= j -> at_tick evs j 500000 - 1 <= at_tick evs' j 500000 <= at_tick evs j 500000.
Proof.
  intros r evs n R T N0 B N5. destruct (load_tempo_f_ok r evs R T) as [m [b [E I]]]. unfold resave. rewrite E. cbn [bind].
  exists (write_tempo_f r m). split; [reflexivity|]. destruct I as [[s [l I1]] [I2 [I3 [I4 I5]]]].
  assert (V : forall t, n + 1 < t <= 2 ^ 48 -> t - 1 <= saved_tempo r (sv r t) <= t).
  { intros t Ht. apply saved_le; try lia. apply sv_ok; lia. }
  assert (BB : bounded n (write_tempo_f r m)).
  { intros e He. apply in_map_iff in He as [[k x] [<- He]]. cbn [snd]. destruct (I4 _ He) as [t [X1 X2]]. cbn [snd] in X1. subst x.
    assert (n + 1 < t <= 2 ^ 48) by (destruct X2 as [->|[k' X2]]; [lia|apply (B _ X2)]). specialize (V t H). lia. }
  split; [|split; [auto|split]].
  - split.
    + clear - I2. unfold write_tempo_f, msorted in *. induction I2 as [|x l I2 IH F]; cbn [map]; constructor; auto. rewrite Forall_forall in *. intros e He. apply in_map_iff in He as [y [<- He]]. apply (F y He).
    + intros e He. pose proof (BB e He). split; [|lia]. apply in_map_iff in He as [[k x] [<- He]]. cbn [fst].
      rewrite I1 in He, I2. destruct He as [He|He]; [inversion He; lia|]. apply StronglySorted_inv in I2 as [_ F]. rewrite Forall_forall in F. apply (F _ He).
  - rewrite I1. unfold write_tempo_f. cbn [map fst snd]. eauto.
  - intros j Hj. 
    assert (W : at_tick (write_tempo_f r m) j 500000 = saved_tempo r (at_tick m j 0%Q)).
    { unfold write_tempo_f. rewrite <- (at_tick_map Q Z (saved_tempo r) m j 0%Q). rewrite I1. cbn [map fst snd]. apply at_tick_head; auto. }
    rewrite W, I5 by auto. apply V. apply at_tick_bounded; auto.
Qed.
Lemma resave_n_ok : forall n r evs, 0 < r -> tempo_events evs -> bounded (Z.of_nat n) evs -> Z.of_nat n < 500000 -> exists evs', resave_n n r evs = Ok evs' /\
  tempo_events evs' /\ forall j, 0 <= j -> at_tick evs j 500000 - Z.of_nat n <= at_tick evs' j 500000 <= at_tick evs j 500000.
Proof.
  induction n as [|n IH]; intros r evs R T B N5.
  - exists evs. split; [reflexivity|]. split; auto. intros; simpl; lia.
  - destruct (resave_ok r evs (Z.of_nat n) R T ltac:(lia)) as [e1 [E1 [T1 [B1 [_ V1]]]]]; [intros e He; specialize (B e He); lia|lia|].
    destruct (IH r e1 R T1 B1 ltac:(lia)) as [e2 [E2 [T2 V2]]].
    exists e2. split; [cbn [resave_n]; rewrite E1; exact E2|]. split; auto. intros j Hj. specialize (V1 j Hj). specialize (V2 j Hj). lia.
Qed.
