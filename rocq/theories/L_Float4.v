(** Seconds of ticks in double precision. *)
From Coq Require Import QArith Qabs Qround Qpower Qfield Lia Lqa Sorted.
From Verif Require Import PyBase L_Base M_Note L_Note L_Note2 M_Ticks S_Ticks L_Ticks M_Float L_Float L_Float2 L_Float3.
Open Scope Z_scope.

Definition sg (L sc : Q) (d : Z) : Q := fl (L + fl (sc * inject_Z d)).
Fixpoint ft (L : Q) (m : list (Z * Q)) (k : Z) : Q :=
  match m with
  | [] => L
  | (s, sc) :: r => match r with
                    | [] => sg L sc (k - s)
                    | (e, _) :: _ => if k <=? e then sg L sc (k - s) else ft (sg L sc (e - s)) r k
                    end
  end.
Definition isf (L : Q) : Prop := (0 <= L)%Q /\ fl L = L.
Lemma Zq0 : forall z, 0 <= z -> (0 <= inject_Z z)%Q.
Proof. intros. change 0%Q with (inject_Z 0). rewrite <- Zle_Qle. auto. Qed.
Lemma isf_fl : forall x, (0 <= x)%Q -> isf (fl x).
Proof. intros x X. split; [apply fl_nonneg; auto|apply fl_idem; auto]. Qed.
Lemma sg_in : forall L sc d, (0 <= L)%Q -> (0 <= sc)%Q -> 0 <= d -> (0 <= L + fl (sc * inject_Z d))%Q.
Proof. intros. pose proof (fl_nonneg (sc * inject_Z d) ltac:(apply Qmult_le_0_compat; auto; apply Zq0; auto)). lra. Qed.
Lemma isf_sg : forall L sc d, (0 <= L)%Q -> (0 <= sc)%Q -> 0 <= d -> isf (sg L sc d).
Proof. intros. apply isf_fl. apply sg_in; auto. Qed.
Lemma sg_0 : forall L sc, isf L -> sg L sc 0 = L.
Proof.
  intros L sc [L0 L1]. unfold sg. rewrite (fl_0 (sc * inject_Z 0)) by (change (inject_Z 0) with 0%Q; ring).
  rewrite <- L1 at 2. apply fl_m0; lra.
Qed.
Lemma ft_start : forall L s sc r, isf L -> (forall x, In x r -> s <= fst x) -> ft L ((s, sc) :: r) s = L.
Proof.
  intros L s sc r H F. cbn [ft]. rewrite Z.sub_diag. destruct r as [|[e sc2] r]; [apply sg_0; auto|].
  pose proof (F _ (or_introl eq_refl)) as F0. cbn in F0. destruct (Z.leb_spec s e); [apply sg_0; auto|lia].
Qed.
Lemma segment_len : forall L sc n, List.length (segment_f L sc n) = Z.to_nat n.
Proof. intros. unfold segment_f. rewrite map_length, arange_len. auto. Qed.
Lemma nth_segment : forall L sc n k, 0 <= k < n -> nth_error (segment_f L sc n) (Z.to_nat k) = Some (sg L sc k).
Proof. intros L sc n k H. unfold segment_f. rewrite nth_error_map, nth_error_arange by lia. cbn [option_map]. rewrite Z2Nat.id by lia. reflexivity. Qed.
Lemma fill_f : forall a s e L sc n, 0 <= s <= e -> e < Z.of_nat (List.length a) -> n = e - s + 1 ->
  exists a', slice_set a s (e + 1) (segment_f L sc n) = Ok a' /\ List.length a' = List.length a /\
    (forall k, 0 <= k < s -> nth_error a' (Z.to_nat k) = nth_error a (Z.to_nat k)) /\
    (forall k, s <= k <= e -> nth_error a' (Z.to_nat k) = Some (sg L sc (k - s))).
Proof.
  intros a s e L sc n H1 H2 Hn. destruct (slice_set_ok a s (e + 1) (segment_f L sc n)) as [a' [E [L1 [P1 [P2 P3]]]]]; try lia; [rewrite segment_len; lia|].
  exists a'. split; auto. split; auto. split; [intros k Hk; apply P1; lia|].
  intros k Hk. replace (Z.to_nat k) with (Z.to_nat s + Z.to_nat (k - s))%nat by lia. rewrite P2 by lia. apply nth_segment. lia.
Qed.
Lemma upd_loop_f_ok : forall l s sc a L, msorted ((s, sc) :: l) -> 0 <= s -> (forall x, In x ((s, sc) :: l) -> fst x < Z.of_nat (List.length a) /\ (0 <= snd x)%Q) ->
  isf L -> exists a' L' pre s' sc', upd_loop_f a L ((s, sc) :: l) = Ok (a', L') /\ (s, sc) :: l = pre ++ [(s', sc')] /\
    List.length a' = List.length a /\ isf L' /\
    (forall k, 0 <= k < s -> nth_error a' (Z.to_nat k) = nth_error a (Z.to_nat k)) /\
    (forall k, s <= k < s' -> nth_error a' (Z.to_nat k) = Some (ft L ((s, sc) :: l) k)) /\
    (forall k, s' <= k -> ft L ((s, sc) :: l) k = sg L' sc' (k - s')).
Proof.
  induction l as [|[e sc2] l IH]; intros s sc a L MS S0 B F.
  - exists a, L, [], s, sc. split; [reflexivity|]. split; [reflexivity|]. split; auto. split; auto. split; auto. split; [intros; lia|]. intros; reflexivity.
  - apply StronglySorted_inv in MS as [MS MF]. rewrite Forall_forall in MF.
    pose proof (MF _ (or_introl eq_refl)) as SE. cbn in SE. destruct (B _ (or_introl eq_refl)) as [_ SC]. cbn in SC.
    destruct (B (e, sc2) (or_intror (or_introl eq_refl))) as [EB _]. cbn in EB.
    destruct (fill_f a s e L sc (e - s + 1)) as [a1 [E1 [L1 [U1 V1]]]]; try lia.
    assert (T1 : nth_error a1 (Z.to_nat e) = Some (sg L sc (e - s))) by (apply V1; lia).
    pose proof (isf_sg L sc (e - s) (proj1 F) SC ltac:(lia)) as F1. set (t := sg L sc (e - s)) in *.
    destruct (IH e sc2 a1 t MS ltac:(lia)) as [a2 [L2 [pre [s' [sc' [E2 [EP [LL [F2 [U2 [V2 W2]]]]]]]]]]]; auto.
    { rewrite L1. intros x Hx. apply B. right; auto. }
    assert (ES : e <= s').
    { assert (In (s', sc') ((e, sc2) :: l)) by (rewrite EP; apply in_or_app; right; left; auto).
      destruct H as [H|H]; [inversion H; lia|]. apply StronglySorted_inv in MS as [_ MF']. rewrite Forall_forall in MF'. apply (MF' _ H). }
    assert (TS : ft t ((e, sc2) :: l) e = t).
    { apply ft_start; auto. intros x Hx. apply StronglySorted_inv in MS as [_ MF']. rewrite Forall_forall in MF'. apply (MF' _ Hx). }
    assert (FE : forall k, e <= k -> ft L ((s, sc) :: (e, sc2) :: l) k = ft t ((e, sc2) :: l) k).
    { intros k Hk. change (ft L ((s, sc) :: (e, sc2) :: l) k) with (if k <=? e then sg L sc (k - s) else ft t ((e, sc2) :: l) k).
      destruct (Z.leb_spec k e); auto. replace k with e by lia. auto. }
    exists a2, L2, ((s, sc) :: pre), s', sc'.
    split. { change (upd_loop_f a L ((s, sc) :: (e, sc2) :: l)) with
        (bind (slice_set a s (e + 1) (segment_f L sc (e - s + 1))) (fun a' => bind (py_nth a' e) (fun t => upd_loop_f a' t ((e, sc2) :: l)))).
      rewrite E1. cbn [bind]. rewrite (py_nth_ok _ a1 e t) by (auto; lia). exact E2. }
    split; [cbn [app]; rewrite EP; reflexivity|]. split; [congruence|]. split; auto.
    split; [intros k Hk; rewrite U2, U1 by lia; auto|].
    split.
    + intros k Hk. destruct (Z_lt_le_dec k e) as [K|K].
      * rewrite U2, V1 by lia. change (ft L ((s, sc) :: (e, sc2) :: l) k) with (if k <=? e then sg L sc (k - s) else ft t ((e, sc2) :: l) k).
        destruct (Z.leb_spec k e); [reflexivity|lia].
      * rewrite FE by auto. apply V2. lia.
    + intros k Hk. rewrite FE by lia. apply W2. auto.
Qed.
Definition goodf (m : list (Z * Q)) (a : list Q) : Prop := forall k, 0 <= k < Z.of_nat (List.length a) -> nth_error a (Z.to_nat k) = Some (ft 0 m k).
Lemma update_table_f_ok : forall m mt, vmap m -> 0 <= mt ->
  exists a, update_table_f m mt = Ok a /\ Z.of_nat (List.length a) = Z.max mt (last_tick m) + 1 /\ goodf m a.
Proof.
  intros m mt V Hmt. destruct (vmap_last m V) as [pre [s [sc [E [EL [Hs Hsc]]]]]].
  assert (V' := V). destruct V' as [[s0 [r E0]] [Hm P]].
  assert (ER : rev m = (s, sc) :: rev pre) by (rewrite E, rev_app_distr; reflexivity).
  unfold update_table_f. rewrite ER.
  replace (fold_right Z.max (fst (hd (0, 0%Q) m)) (map fst m)) with (last_tick m) by (rewrite E0; reflexivity).
  set (M := if last_tick m <? mt then mt else last_tick m).
  assert (EM : M = Z.max mt (last_tick m)) by (unfold M; destruct (Z.ltb_spec (last_tick m) mt); lia).
  assert (HM : last_tick m <= M /\ 0 <= M) by lia. rewrite <- EM. clearbody M.
  set (z := repeat 0%Q (Z.to_nat (M + 1))). assert (Lz : List.length z = Z.to_nat (M + 1)) by (apply repeat_length).
  destruct (upd_loop_f_ok r 0 s0 z 0%Q) as [a [L [pre' [s' [sc' [E1 [E2 [LL [FL [U [W X]]]]]]]]]]]; try lia.
  - rewrite <- E0. auto.
  - rewrite <- E0. intros x Hx. pose proof (last_tick_ge m x Hx). specialize (P x Hx). split; [lia|lra].
  - split; [lra|reflexivity].
  - rewrite <- E0 in *. rewrite E1. cbn [bind]. rewrite E in E2. apply app_inj_tail in E2 as [<- E2]. injection E2 as <- <-.
    replace (Z.of_nat (List.length a)) with (M + 1) by lia.
    destruct (fill_f a s M L sc (M + 1 - s)) as [a' [E3 [L3 [U3 V3]]]]; try lia.
    exists a'. split; auto. split; [lia|]. intros k Hk. destruct (Z_lt_le_dec k s) as [K|K].
    + rewrite U3 by lia. apply W. lia.
    + rewrite V3 by lia. rewrite X by lia. reflexivity.
Qed.
Definition finv (m : list (Z * Q)) (p : pm) : Prop := p_scales p = m /\ last_tick m < Z.of_nat (List.length (p_times p)) /\ goodf m (p_times p).
Lemma tick_f_ok : forall m p k, vmap m -> finv m p -> 0 <= k < MAX_TICK ->
  exists p', tick_to_time_f p k = (Ok (ft 0 m k), p') /\ finv m p' /\ Z.of_nat (List.length (p_times p')) = Z.max (Z.of_nat (List.length (p_times p))) (k + 1).
Proof.
  intros m p k V [E1 [E2 E3]] H. unfold tick_to_time_f. destruct (Z.leb_spec MAX_TICK k); [lia|].
  destruct (Z.leb_spec (Z.of_nat (List.length (p_times p))) k) as [L|L].
  - rewrite E1. destruct (update_table_f_ok m k V ltac:(lia)) as [a [Ea [La Ga]]]. rewrite Ea. cbn [bind p_times].
    rewrite (py_nth_ok _ a k (ft 0 m k)) by (try lia; apply Ga; lia).
    eexists. split; [reflexivity|]. split; [|cbn [p_times]; lia]. split; [reflexivity|]. cbn [p_times]. split; [lia|auto].
  - rewrite (py_nth_ok _ _ k (ft 0 m k)) by (try lia; apply E3; lia). exists p. split; auto. split; [split; auto|lia].
Qed.
Lemma run_f_ok : forall m ks p, vmap m -> finv m p -> let p' := pm_run_f p ks in
  finv m p' /\ Z.of_nat (List.length (p_times p)) <= Z.of_nat (List.length (p_times p')) <= Z.max (Z.of_nat (List.length (p_times p))) MAX_TICK.
Proof.
  intros m. induction ks as [|k ks IH]; intros p V I; [cbn; split; [auto|lia]|].
  assert (X : finv m (snd (tick_to_time_f p k)) /\ Z.of_nat (List.length (p_times p)) <= Z.of_nat (List.length (p_times (snd (tick_to_time_f p k)))) <= Z.max (Z.of_nat (List.length (p_times p))) MAX_TICK).
  { destruct (Z_lt_le_dec k MAX_TICK) as [K|K]; [|unfold tick_to_time_f; destruct (Z.leb_spec MAX_TICK k); [cbn [snd]; split; [auto|lia]|lia]].
    destruct (Z_lt_le_dec k 0) as [K0|K0].
    - unfold tick_to_time_f. destruct (Z.leb_spec MAX_TICK k); [lia|]. destruct (Z.leb_spec (Z.of_nat (List.length (p_times p))) k); [lia|]. cbn [snd]. split; [auto|lia].
    - destruct (tick_f_ok m p k V I ltac:(lia)) as [p' [E [I' LE]]]. rewrite E. cbn [snd]. split; [auto|lia]. }
  destruct X as [X1 X2]. destruct (IH _ V X1) as [Y1 Y2]. cbn [pm_run_f fold_left]. fold (pm_run_f (snd (tick_to_time_f p k)) ks). split; [exact Y1|].
  unfold pm_run_f in *. cbn [fold_left]. lia.
Qed.

(** ** accuracy *)
Lemma near_T : forall m r pre s sc L j k, m = pre ++ (s, sc) :: r -> msorted m -> vmap m -> near (S j) L (T m s) -> 0 <= s <= k ->
  near (S j + S (List.length r)) (ft L ((s, sc) :: r) k) (T m k).
Proof.
  intros m. induction r as [|[e sc2] r IH]; intros pre s sc L j k Em MS V N HK.
  - assert (X : near (S (S j)) (sg L sc (k - s)) (T m k)).
    { apply near_fl'. assert (SC : (0 < sc)%Q) by (apply (proj2 (proj2 V) (s, sc)); rewrite Em; apply in_or_app; right; left; auto).
      assert (N1 : near (S j) (fl (sc * inject_Z (k - s))) (sc * inject_Z (k - s))).
      { apply near_le with 1%nat; [lia|]. apply near_fl. apply Qmult_le_0_compat; [lra|apply Zq0; lia]. }
      pose proof (near_add _ _ _ _ _ N N1) as N2. eapply near_m; [reflexivity| |exact N2]. unfold T. symmetry. apply sum_to_seg; [lia|].
      intros i Hi. unfold tf. rewrite Em, at_tick_seg; [reflexivity|lia|intros x []]. }
    cbn [ft List.length]. replace (S j + 1)%nat with (S (S j)) by lia. exact X.
  - assert (MS' := MS). rewrite Em in MS'. apply msorted_app in MS' as [MS' _]. apply StronglySorted_inv in MS' as [MS1 MS2].
    rewrite Forall_forall in MS2. pose proof (MS2 _ (or_introl eq_refl)) as SE. cbn in SE.
    assert (R : forall x, In x ((e, sc2) :: r) -> e <= fst x).
    { intros x [<-|Hx]; [cbn; lia|]. apply StronglySorted_inv in MS1 as [_ MF]. rewrite Forall_forall in MF. apply (MF _ Hx). }
    assert (X : forall k', s <= k' <= e -> near (S (S j)) (sg L sc (k' - s)) (T m k')).
    { intros k' Hk'. apply near_fl'. assert (SC : (0 < sc)%Q) by (apply (proj2 (proj2 V) (s, sc)); rewrite Em; apply in_or_app; right; left; auto).
      assert (N1 : near (S j) (fl (sc * inject_Z (k' - s))) (sc * inject_Z (k' - s))).
      { apply near_le with 1%nat; [lia|]. apply near_fl. apply Qmult_le_0_compat; [lra|apply Zq0; lia]. }
      pose proof (near_add _ _ _ _ _ N N1) as N2. eapply near_m; [reflexivity| |exact N2]. unfold T. symmetry. apply sum_to_seg; [lia|].
      intros i Hi. unfold tf. rewrite Em, at_tick_seg; [reflexivity|lia|]. intros x Hx. specialize (R x Hx). lia. }
    change (ft L ((s, sc) :: (e, sc2) :: r) k) with (if k <=? e then sg L sc (k - s) else ft (sg L sc (e - s)) ((e, sc2) :: r) k).
    destruct (Z.leb_spec k e).
    + apply near_le with (S (S j)); [cbn [List.length]; lia|]. apply X. lia.
    + replace (S j + S (List.length ((e, sc2) :: r)))%nat with (S (S j) + S (List.length r))%nat by (cbn [List.length]; lia).
      apply IH with (pre := pre ++ [(s, sc)]); auto; [rewrite <- app_assoc; auto|apply X; lia|lia].
Qed.
Lemma ft_near : forall m k, vmap m -> 0 <= k -> near (1 + List.length m) (ft 0 m k) (T m k).
Proof.
  intros m k V K. assert (V' := V). destruct V' as [[s [r E]] [MS _]].
  pose proof (near_T m r [] 0 s 0%Q 0 k E MS V) as H. rewrite E at 1 2. apply H; [|lia].
  unfold T. rewrite sum_to_0. apply near_refl. lra.
Qed.
Lemma near_sum : forall j f g k, 0 <= k -> (forall i, 0 <= i -> near j (f i) (g i)) -> near j (sum_to f k) (sum_to g k).
Proof.
  intros j f g k K H. revert k K. apply natlike_ind.
  - rewrite !sum_to_0. apply near_refl. lra.
  - intros x Hx IH. unfold Z.succ. eapply near_m; [symmetry; apply sum_to_succ; auto|symmetry; apply sum_to_succ; auto|]. apply near_add; auto.
Qed.
Lemma sv_near : forall r t, 0 < t -> 0 < r -> near 3 (sv r t) (inject_Z t / (1000000 * inject_Z r)).
Proof. intros r t T0 R. destruct (scale_f_ok t r T0 R) as [s [_ [_ [E N]]]]. unfold sv. rewrite <- E. auto. Qed.
Lemma at_tick_tempo_pos : forall evs j, tempo_events evs -> 0 < at_tick evs j 500000.
Proof. intros evs j [_ P]. destruct (at_tick_In _ evs j 500000) as [E|[e [E1 E2]]]; [rewrite E; lia|rewrite E2; apply P; auto]. Qed.
Lemma tf_near : forall r evs m b j, 0 < r -> tempo_events evs -> linv r evs m b -> 0 <= j -> near 3 (tf m j) (tick_length r evs j).
Proof.
  intros r evs m b j R TE [_ [_ [_ [_ H]]]] Hj. unfold tf. rewrite H by auto. unfold tick_length. apply sv_near; auto. apply at_tick_tempo_pos; auto.
Qed.
Lemma linv_vmap : forall r evs m b, 0 < r -> tempo_events evs -> linv r evs m b -> vmap m.
Proof.
  intros r evs m b R [_ TE] [H1 [H2 [_ [H3 _]]]]. split; auto. split; auto. intros e He. destruct (H3 e He) as [t [-> X]].
  apply sv_ok; auto. destruct X as [->|[k X]]; [lia|apply (TE _ X)].
Qed.
Lemma loop_len : forall r evs sc m, tempo_loop_f r evs sc = Ok m -> (1 <= List.length sc)%nat -> (List.length m <= List.length sc + List.length evs)%nat.
Proof.
  intros r. induction evs as [|[k t] evs IH]; intros sc m E L; [cbn in E; injection E as <-; cbn; lia|].
  cbn [tempo_loop_f] in E. destruct (scale_f t r) as [s|]; [|discriminate]. cbn [bind] in E. cbn [List.length].
  destruct (k =? 0); [apply IH in E; cbn in *; lia|]. destruct (rev sc) as [|[? l]]; [discriminate|].
  destruct (Qeq_bool s l); apply IH in E; rewrite ?app_length in *; cbn in *; lia.
Qed.
Lemma load_len : forall r evs m, load_tempo_f r evs = Ok m -> (List.length m <= 1 + List.length evs)%nat.
Proof. intros r evs m E. unfold load_tempo_f in E. destruct (scale_bpm_f 120 r); [|discriminate]. cbn [bind] in E. apply loop_len in E; cbn in *; lia. Qed.
Lemma time_near : forall r evs m b k, 0 < r -> tempo_events evs -> load_tempo_f r evs = Ok m -> linv r evs m b -> 0 <= k ->
  near (5 + List.length evs) (ft 0 m k) (sum_to (tick_length r evs) k).
Proof.
  intros r evs m b k R TE E I K. pose proof (linv_vmap _ _ _ _ R TE I) as V. apply near_le with ((1 + List.length m) + 3)%nat; [apply load_len in E; lia|].
  eapply near_trans; [apply ft_near; auto|]. unfold T. apply near_sum; auto. intros i Hi. eapply tf_near; eauto.
Qed.

(** ** order *)
Lemma sg_mono : forall L sc d d', (0 <= L)%Q -> (0 <= sc)%Q -> 0 <= d <= d' -> (sg L sc d <= sg L sc d')%Q.
Proof.
  intros L sc d d' L0 S0 D. apply fl_mono0; [apply sg_in; auto; lia|].
  assert (X : (inject_Z d <= inject_Z d')%Q) by (rewrite <- Zle_Qle; lia). pose proof (Zq0 d ltac:(lia)).
  assert (fl (sc * inject_Z d) <= fl (sc * inject_Z d'))%Q; [|lra].
  apply fl_mono0; [apply Qmult_le_0_compat; auto|]. rewrite !(Qmult_comm sc). apply Qmul_le; auto.
Qed.
Lemma ft_ge : forall r L s sc k, isf L -> msorted ((s, sc) :: r) -> (forall x, In x ((s, sc) :: r) -> (0 <= snd x)%Q) -> s <= k -> (L <= ft L ((s, sc) :: r) k)%Q.
Proof.
  induction r as [|[e sc2] r IH]; intros L s sc k F MS P K; pose proof (P _ (or_introl eq_refl)) as SC; cbn in SC.
  - cbn [ft]. rewrite <- (sg_0 L sc F) at 1. apply sg_mono; try apply F; auto; lia.
  - change (ft L ((s, sc) :: (e, sc2) :: r) k) with (if k <=? e then sg L sc (k - s) else ft (sg L sc (e - s)) ((e, sc2) :: r) k).
    apply StronglySorted_inv in MS as [MS MF]. rewrite Forall_forall in MF. pose proof (MF _ (or_introl eq_refl)) as SE. cbn in SE.
    destruct (Z.leb_spec k e); [rewrite <- (sg_0 L sc F) at 1; apply sg_mono; try apply F; auto; lia|].
    apply Qle_trans with (sg L sc (e - s)); [rewrite <- (sg_0 L sc F) at 1; apply sg_mono; try apply F; auto; lia|].
    apply IH; auto; [apply isf_sg; try apply F; auto; lia|intros; apply P; right; auto|lia].
Qed.
Lemma ft_mono : forall r L s sc j k, isf L -> msorted ((s, sc) :: r) -> (forall x, In x ((s, sc) :: r) -> (0 <= snd x)%Q) -> s <= j <= k ->
  (ft L ((s, sc) :: r) j <= ft L ((s, sc) :: r) k)%Q.
Proof.
  induction r as [|[e sc2] r IH]; intros L s sc j k F MS P K; pose proof (P _ (or_introl eq_refl)) as SC; cbn in SC.
  - cbn [ft]. apply sg_mono; try apply F; auto; lia.
  - change (ft L ((s, sc) :: (e, sc2) :: r) k) with (if k <=? e then sg L sc (k - s) else ft (sg L sc (e - s)) ((e, sc2) :: r) k).
    change (ft L ((s, sc) :: (e, sc2) :: r) j) with (if j <=? e then sg L sc (j - s) else ft (sg L sc (e - s)) ((e, sc2) :: r) j).
    apply StronglySorted_inv in MS as [MS MF]. rewrite Forall_forall in MF. pose proof (MF _ (or_introl eq_refl)) as SE. cbn in SE.
    pose proof (isf_sg L sc (e - s) (proj1 F) SC ltac:(lia)) as F1.
    destruct (Z.leb_spec j e), (Z.leb_spec k e); try lia.
    + apply sg_mono; try apply F; auto; lia.
    + apply Qle_trans with (sg L sc (e - s)); [apply sg_mono; try apply F; auto; lia|]. apply ft_ge; auto; [intros; apply P; right; auto|lia].
    + apply IH; auto; [intros; apply P; right; auto|lia].
Qed.
(** the gap between the seconds of two neighbouring ticks *)
Lemma sg_gap : forall L sc d, (0 <= L)%Q -> (0 < sc)%Q -> 0 <= d -> (sc - 12 * u * sg L sc (d + 1) <= sg L sc (d + 1) - sg L sc d)%Q.
Proof.
  intros L sc d L0 SC D. unfold sg. set (a := (sc * inject_Z d)%Q). set (b := (sc * inject_Z (d + 1))%Q).
  assert (AB : (b == a + sc)%Q) by (unfold a, b; rewrite inject_Z_plus; change (inject_Z 1) with 1%Q; ring).
  assert (A0 : (0 <= a)%Q) by (apply Qmult_le_0_compat; [lra|apply Zq0; auto]). assert (B0 : (0 <= b)%Q) by lra.
  destruct (fl_err a A0) as [_ A2]. destruct (fl_err b B0) as [B1 B2]. pose proof (fl_nonneg a A0). pose proof (fl_nonneg b B0).
  pose proof (fl_mono0 a b A0 ltac:(lra)) as M. set (fa := fl a) in *. set (fb := fl b) in *. clearbody fa fb. clearbody a b.
  destruct (fl_err (L + fa) ltac:(lra)) as [_ X2]. destruct (fl_err (L + fb) ltac:(lra)) as [Y1 Y2]. pose proof (fl_nonneg (L + fb) ltac:(lra)).
  set (fx := fl (L + fa)) in *. set (fy := fl (L + fb)) in *. clearbody fx fy.
  assert (U : (u == 1 # 9007199254740992)%Q) by reflexivity. rewrite U in *. lra.
Qed.
