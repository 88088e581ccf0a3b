(** Seconds after saving and loading again, in double precision. *)
From Coq Require Import QArith Qabs Lia Lqa Sorted.
From Verif Require Import PyBase L_Base M_Note M_Ticks S_Ticks L_Ticks M_Float S_Float L_Float L_Float2 L_Float3 L_Float4 L_Float5.
Open Scope Z_scope.

Lemma load_ticks : forall r evs m last, load_tempo_f r evs = Ok m -> 0 <= last -> (forall e, In e evs -> fst e <= last) -> forall x, In x m -> fst x <= last.
Proof.
  intros r evs m last E L B x Hx. unfold load_tempo_f in E. destruct (scale_bpm_f 120 r); [|discriminate]. cbn [bind] in E.
  destruct (loop_ticks _ _ _ _ E x Hx) as [[H1|[]]|[H1|H1]]; cbn in *; try lia. apply in_map_iff in H1 as [e' [<- H1]]. auto.
Qed.
Lemma resave_ticks : forall r evs e1 last, resave r evs = Ok e1 -> 0 <= last -> (forall e, In e evs -> fst e <= last) -> forall e, In e e1 -> fst e <= last.
Proof.
  intros r evs e1 last E L B e He. unfold resave in E. destruct (load_tempo_f r evs) as [m|] eqn:EM; cbn [bind] in E; [|discriminate]. injection E as <-.
  apply in_map_iff in He as [x [<- Hx]]. cbn [fst]. eapply load_ticks; eauto.
Qed.
Lemma resave_n_ticks : forall n r evs e1 last, resave_n n r evs = Ok e1 -> 0 <= last -> (forall e, In e evs -> fst e <= last) -> forall e, In e e1 -> fst e <= last.
Proof.
  induction n as [|n IH]; intros r evs e1 last E L B; [injection E as <-; auto|]. cbn [resave_n] in E. destruct (resave r evs) as [e0|] eqn:E0; cbn [bind] in E; [|discriminate].
  eapply IH; eauto. eapply resave_ticks; eauto.
Qed.
Lemma load_len0 : forall r t evs m, load_tempo_f r ((0, t) :: evs) = Ok m -> (List.length m <= 1 + List.length evs)%nat.
Proof.
  intros r t evs m E. unfold load_tempo_f in E. destruct (scale_bpm_f 120 r); [|discriminate]. cbn [bind tempo_loop_f] in E.
  destruct (scale_f t r) as [s|]; cbn [bind] in E; [|discriminate]. cbn [Z.eqb] in E. apply loop_len in E; cbn in *; lia.
Qed.
Lemma resave_len : forall r evs e1, resave r evs = Ok e1 -> (List.length e1 <= 1 + List.length evs)%nat.
Proof.
  intros r evs e1 E. unfold resave in E. destruct (load_tempo_f r evs) as [m|] eqn:EM; cbn [bind] in E; [|discriminate]. injection E as <-.
  unfold write_tempo_f. rewrite map_length. eapply load_len; eauto.
Qed.
Lemma resave_len0 : forall r t evs e1, resave r ((0, t) :: evs) = Ok e1 -> (List.length e1 <= 1 + List.length evs)%nat.
Proof.
  intros r t evs e1 E. unfold resave in E. destruct (load_tempo_f r ((0, t) :: evs)) as [m|] eqn:EM; cbn [bind] in E; [|discriminate]. injection E as <-.
  unfold write_tempo_f. rewrite map_length. eapply load_len0; eauto.
Qed.
Lemma resave_n_len0 : forall n r t evs e2, 0 < r -> tempo_events ((0, t) :: evs) -> bounded (Z.of_nat n) ((0, t) :: evs) -> Z.of_nat n < 500000 ->
  resave_n n r ((0, t) :: evs) = Ok e2 -> (List.length e2 <= 1 + List.length evs)%nat.
Proof.
  induction n as [|n IH]; intros r t evs e2 R T B N E; [injection E as <-; cbn; lia|]. cbn [resave_n] in E.
  destruct (resave_ok r ((0, t) :: evs) (Z.of_nat n) R T ltac:(lia)) as [e1 [E1 [T1 [B1 [[s [l ->]] _]]]]]; [intros e He; specialize (B e He); lia|lia|].
  rewrite E1 in E. cbn [bind] in E. pose proof (resave_len0 _ _ _ _ E1) as L1. apply IH in E; auto; [cbn in L1; lia|lia].
Qed.
Lemma resave_n_len : forall n r evs e2, 0 < r -> tempo_events evs -> bounded (Z.of_nat n) evs -> Z.of_nat n < 500000 ->
  resave_n n r evs = Ok e2 -> (List.length e2 <= 1 + List.length evs)%nat.
Proof.
  intros [|n] r evs e2 R T B N E; [injection E as <-; lia|]. cbn [resave_n] in E.
  destruct (resave_ok r evs (Z.of_nat n) R T ltac:(lia)) as [e1 [E1 [T1 [B1 [[s [l ->]] _]]]]]; [intros e He; specialize (B e He); lia|lia|].
  rewrite E1 in E. cbn [bind] in E. pose proof (resave_len _ _ _ E1) as L1. apply resave_n_len0 in E; auto; [cbn in L1; lia|lia].
Qed.
Lemma sum_between : forall f g c k, 0 <= k -> (forall j, 0 <= j < k -> (f j - c <= g j /\ g j <= f j)%Q) ->
  (sum_to f k - inject_Z k * c <= sum_to g k /\ sum_to g k <= sum_to f k)%Q.
Proof.
  intros f g c k K H. replace k with (Z.of_nat (Z.to_nat k)) in * by lia. remember (Z.to_nat k) as n eqn:D. clear D K k.
  induction n as [|n IH]; [change (Z.of_nat 0) with 0; rewrite !sum_to_0; change (inject_Z 0) with 0%Q; split; lra|].
  replace (Z.of_nat (S n)) with (Z.of_nat n + 1) in * by lia. pose proof (sum_to_succ f (Z.of_nat n) ltac:(lia)) as F. pose proof (sum_to_succ g (Z.of_nat n) ltac:(lia)) as G.
  destruct IH as [A B]; [intros j Hj; apply H; lia|]. destruct (H (Z.of_nat n) ltac:(lia)) as [C D].
  assert (X : (inject_Z (Z.of_nat n + 1) * c == inject_Z (Z.of_nat n) * c + c)%Q) by (rewrite inject_Z_plus; change (inject_Z 1) with 1%Q; ring).
  set (a := (inject_Z (Z.of_nat n) * c)%Q) in *. set (a2 := (inject_Z (Z.of_nat n + 1) * c)%Q) in *. clearbody a a2. split; lra.
Qed.
Lemma length_between : forall r e1 e2 n j, 0 < r -> at_tick e1 j 500000 - n <= at_tick e2 j 500000 <= at_tick e1 j 500000 ->
  (tick_length r e1 j - inject_Z n / (1000000 * inject_Z r) <= tick_length r e2 j /\ tick_length r e2 j <= tick_length r e1 j)%Q.
Proof.
  intros r e1 e2 n j R [A B]. unfold tick_length. pose proof (Zq r R) as RQ. rewrite Zle_Qle in A, B. unfold Z.sub in A. rewrite inject_Z_plus, inject_Z_opp in A.
  set (x := inject_Z (at_tick e1 j 500000)) in *. set (y := inject_Z (at_tick e2 j 500000)) in *. set (d := (1000000 * inject_Z r)%Q) in *. assert (D : (0 < d)%Q) by (unfold d; lra).
  assert (I : (0 <= / d)%Q) by (apply Qlt_le_weak, Qinv_lt_0_compat; auto). unfold Qdiv.
  assert (P1 : (0 <= (x - y) * / d)%Q) by (apply Qmult_le_0_compat; lra).
  assert (P2 : (0 <= (y - x + inject_Z n) * / d)%Q) by (apply Qmult_le_0_compat; lra).
  assert (E1 : ((x - y) * / d == x * / d - y * / d)%Q) by ring. assert (E2 : ((y - x + inject_Z n) * / d == y * / d - x * / d + inject_Z n * / d)%Q) by ring.
  set (a := (x * / d)%Q) in *. set (b := (y * / d)%Q) in *. set (c := (inject_Z n * / d)%Q) in *. clearbody a b c. split; lra.
Qed.
Definition within (lo hi : Z) (evs : list (Z * Z)) : Prop := forall e, In e evs -> lo <= snd e <= hi.
Lemma resave_within : forall r evs lo hi e1, 0 < r -> tempo_events evs -> 0 <= lo -> hi <= 2 ^ 48 -> lo + 1 <= 500000 <= hi -> within (lo + 1) hi evs ->
  resave r evs = Ok e1 -> tempo_events e1 -> within lo hi e1.
Proof.
  intros r evs lo hi e1 R T L H D W E _ e He. destruct (load_tempo_f_ok r evs R T) as [m [b [EM I]]]. unfold resave in E. rewrite EM in E. cbn [bind] in E. injection E as <-.
  apply in_map_iff in He as [[k x] [<- He]]. cbn [snd]. destruct I as [_ [_ [_ [I4 _]]]]. destruct (I4 _ He) as [t [X1 X2]]. cbn [snd] in X1. subst x.
  assert (B : lo + 1 <= t <= hi) by (destruct X2 as [->|[k' X2]]; [lia|apply (W _ X2)]). destruct (sv_ok t r ltac:(lia) R) as [S1 _].
  pose proof (saved_le t r (sv r t) ltac:(lia) R S1). lia.
Qed.
Lemma resave_n_within : forall n r evs lo hi e1, 0 < r -> tempo_events evs -> 0 < lo -> hi <= 2 ^ 48 -> lo + Z.of_nat n <= 500000 <= hi -> within (lo + Z.of_nat n) hi evs ->
  resave_n n r evs = Ok e1 -> within lo hi e1.
Proof.
  induction n as [|n IH]; intros r evs lo hi e1 R T L H D W E; [injection E as <-; replace (lo + Z.of_nat 0) with lo in W by lia; auto|].
  cbn [resave_n] in E. destruct (resave_ok r evs (Z.of_nat n) R T ltac:(lia)) as [e0 [E0 [T0 _]]]; [intros e He; specialize (W e He); lia|lia|].
  rewrite E0 in E. cbn [bind] in E. apply (IH r e0 lo hi); auto; [lia|].
  apply (resave_within r evs (lo + Z.of_nat n) hi e0); auto; try lia. intros e He. specialize (W e He). lia.
Qed.
