(** Reported tempi in double precision. *)
From Coq Require Import QArith Qabs Qround Lia Lqa Sorted.
From Verif Require Import PyBase L_Base M_Note L_Note M_Ticks S_Ticks L_Ticks M_Float S_Float L_Float L_Float2 L_Float3 L_Float4 L_Float5 L_Song2 S_TempoF L_TempoF M_ReportF.
Open Scope Z_scope.

Definition rep (r : Z) (m : list (Z * Q)) (x : Z * Q) : Q * Q := (ft 0 m (fst x), fl (60 / fl (snd x * inject_Z r))).
Lemma pos_not0' : forall x, (0 < x)%Q -> Qeq_bool x 0 = false.
Proof. intros x H. destruct (Qeq_bool x 0) eqn:E; auto. apply Qeq_bool_iff in E. lra. Qed.
Lemma tick_res : forall p k t p', tick_to_time_f p k = (Ok t, p') -> p_res p' = p_res p.
Proof.
  intros p k t p' H. unfold tick_to_time_f in H. destruct (MAX_TICK <=? k); [discriminate|]. destruct (Z.of_nat (List.length (p_times p)) <=? k).
  - destruct (update_table_f (p_scales p) k); cbn [bind] in H; [|discriminate]. injection H as _ <-. reflexivity.
  - injection H as _ <-. reflexivity.
Qed.
Lemma rep_loop : forall m r l p, 0 < r -> vmap m -> finv m p -> p_res p = r -> (forall x, In x l -> 0 <= fst x < MAX_TICK /\ (0 < snd x)%Q) ->
  exists p', tempo_changes_loop_f p l = (Ok (map (rep r m) l), p').
Proof.
  intros m r. induction l as [|[k sc] l IH]; intros p R V I E H; [eexists; reflexivity|]. cbn [tempo_changes_loop_f map].
  destruct (H (k, sc) (or_introl eq_refl)) as [H1 H2]. cbn [fst snd] in H1, H2. destruct (tick_f_ok m p k V I H1) as (p1 & E1 & I1 & _). rewrite E1.
  pose proof (tick_res _ _ _ _ E1) as R1. rewrite R1, E. pose proof (Zq r R) as RQ.
  assert (D : (0 < fl (sc * inject_Z r))%Q) by (apply fl_gt0; apply Qmult_lt_0_compat; auto). rewrite (pos_not0' _ D).
  destruct (IH p1 R V I1 ltac:(congruence) (fun x Hx => H x (or_intror Hx))) as (p2 & E2). rewrite E2. eexists. reflexivity.
Qed.
Lemma rep_near : forall r t, 0 < r -> 0 < t -> near 5 (fl (60 / fl (sv r t * inject_Z r))) (60000000 / inject_Z t).
Proof.
  intros r t R T. pose proof (Zq t T) as TQ. pose proof (Zq r R) as RQ. pose proof (sv_near r t T R) as N. set (x := (inject_Z t / (1000000 * inject_Z r))%Q) in *. assert (X0 : (0 < x)%Q) by (apply Qlt_shift_div_l; lra).
  assert (XR : (0 < x * inject_Z r)%Q) by (apply Qmult_lt_0_compat; auto).
  assert (N1 : near 4 (fl (sv r t * inject_Z r)) (x * inject_Z r)) by (apply near_fl', near_mul; [lra|auto]).
  eapply near_m; [reflexivity| |apply near_fl', near_div; [|exact XR|exact N1]; discriminate]. unfold x. field. lra.
Qed.
Lemma floor_near : forall us q, 0 < us -> parts 5 q (60000000 / inject_Z us) ->
  Qfloor q = 60000000 / us \/ (60000000 mod us = 0 /\ Qfloor q = 60000000 / us - 1).
Proof.
  intros us q U A. pose proof (Zq us U) as U0. unfold parts in A.
  pose proof (Z.div_mod 60000000 us ltac:(lia)) as DM. pose proof (Z.mod_pos_bound 60000000 us ltac:(lia)) as MB. set (d := 60000000 / us) in *. set (m := 60000000 mod us) in *.
  assert (X : (60000000 == inject_Z us * inject_Z d + inject_Z m)%Q) by (change 60000000%Q with (inject_Z 60000000); rewrite <- inject_Z_mult, <- inject_Z_plus, <- DM; reflexivity).
  assert (U1 : (1 <= inject_Z us)%Q) by (change 1%Q with (inject_Z 1); rewrite <- Zle_Qle; lia).
  assert (M0 : (0 <= inject_Z m)%Q) by (change 0%Q with (inject_Z 0); rewrite <- Zle_Qle; lia).
  assert (M2 : (inject_Z m <= inject_Z us - 1)%Q). { assert (m + 1 <= us) by lia. rewrite Zle_Qle, inject_Z_plus in H. change (inject_Z 1) with 1%Q in H. lra. }
  assert (QX : (Qabs ((q - inject_Z d) * inject_Z us - inject_Z m) < 1 # 2)%Q).
  { assert (E2 : ((q - inject_Z d) * inject_Z us - inject_Z m == (q - 60000000 / inject_Z us) * inject_Z us)%Q).
    { setoid_replace ((q - 60000000 / inject_Z us) * inject_Z us)%Q with (q * inject_Z us - 60000000)%Q by (field; lra). rewrite X. ring. }
    rewrite Qabsb_Qabs in A. rewrite (Qabs_wd _ _ E2), Qabs_Qmult, (Qabs_pos (inject_Z us)) by lra.
    apply Qle_lt_trans with (60000000 / inject_Z us * (inject_Z 5 / inject_Z (2 ^ 51)) * inject_Z us)%Q; [apply Qmult_le_compat_r; [exact A|lra]|].
    setoid_replace (60000000 / inject_Z us * (inject_Z 5 / inject_Z (2 ^ 51)) * inject_Z us)%Q with (60000000 * (5 # 2251799813685248))%Q; [reflexivity|].
    change (inject_Z 5 / inject_Z (2 ^ 51))%Q with (5 # 2251799813685248)%Q. field. lra. }
  assert (B : ((q - inject_Z d) * inject_Z us < inject_Z m + (1 # 2) /\ inject_Z m - (1 # 2) < (q - inject_Z d) * inject_Z us)%Q).
  { apply Qabs_Qlt_condition in QX. lra. }
  destruct B as [B1 B2]. set (w := inject_Z us) in *.
  assert (UP : (q < inject_Z d + 1)%Q).
  { destruct (Qlt_le_dec q (inject_Z d + 1)) as [L|L]; auto. exfalso. assert (0 <= (q - inject_Z d - 1) * w)%Q by (apply Qmult_le_0_compat; lra).
    assert ((q - inject_Z d - 1) * w == (q - inject_Z d) * w - w)%Q by ring. set (a := ((q - inject_Z d) * w)%Q) in *. set (a2 := ((q - inject_Z d - 1) * w)%Q) in *. clearbody a a2. lra. }
  destruct (Qlt_le_dec q (inject_Z d)) as [L|L].
  - right. assert (m = 0) as MZ. { destruct (Z.eq_dec m 0); auto. exfalso. assert (1 <= inject_Z m)%Q by (change 1%Q with (inject_Z 1); rewrite <- Zle_Qle; lia). assert (0 <= (inject_Z d - q) * w)%Q by (apply Qmult_le_0_compat; lra).
      assert ((inject_Z d - q) * w == - ((q - inject_Z d) * w))%Q by ring. set (a := ((q - inject_Z d) * w)%Q) in *. set (a2 := ((inject_Z d - q) * w)%Q) in *. clearbody a a2. lra. }
    split; auto. assert (D1 : (inject_Z (d - 1) == inject_Z d + -1)%Q) by (unfold Z.sub; rewrite inject_Z_plus; reflexivity). apply Qfloor_unique; rewrite D1; [|lra].
    destruct (Qlt_le_dec q (inject_Z d + -1)) as [L2|L2]; auto. exfalso. rewrite MZ in B2. change (inject_Z 0) with 0%Q in B2. assert (0 <= (inject_Z d - 1 - q) * w)%Q by (apply Qmult_le_0_compat; lra).
    assert ((inject_Z d - 1 - q) * w == - ((q - inject_Z d) * w) - w)%Q by ring. set (a := ((q - inject_Z d) * w)%Q) in *. set (a2 := ((inject_Z d - 1 - q) * w)%Q) in *. clearbody a a2. lra.
  - left. apply Qfloor_unique; auto.
Qed.
Lemma load_res : forall r evs last p, pm_load_f r evs last = Ok p -> p_res p = r.
Proof.
  intros r evs last p H. unfold pm_load_f in H. destruct (load_tempo_f r evs) as [sc|]; cbn [bind] in H; [|discriminate].
  destruct (MAX_TICK <? last + 1); [discriminate|]. destruct (update_table_f sc (last + 1)); cbn [bind] in H; [|discriminate]. injection H as <-. reflexivity.
Qed.
Lemma tick_res' : forall p k, p_res (snd (tick_to_time_f p k)) = p_res p.
Proof.
  intros p k. unfold tick_to_time_f. destruct (MAX_TICK <=? k); [reflexivity|]. destruct (Z.of_nat (List.length (p_times p)) <=? k); [|reflexivity].
  destruct (update_table_f (p_scales p) k); reflexivity.
Qed.
Lemma run_res : forall ks p, p_res (pm_run_f p ks) = p_res p.
Proof. unfold pm_run_f. induction ks as [|k ks IH]; intros p; [reflexivity|]. cbn [fold_left]. rewrite IH. apply tick_res'. Qed.
