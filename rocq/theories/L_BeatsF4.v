(** Lemmas about M_BeatsF: one tempo and no signature; downbeats. *)
From Coq Require Import Sorted Permutation Lia Lqa Qfield Qabs Qpower Qround.
From Verif Require Import PyBase M_Float M_Beats M_BeatsF S_Beats S_Snap S_ShiftF S_BeatsF L_Base L_Note L_Float L_Float2 L_Snap L_NoteF L_NoteF2 L_UtilsF L_UtilsF2 L_UtilsF3 L_Utils P_Rounding L_ShiftF L_Beats L_Beats2 L_Beats3 L_Beats4 L_BeatsF L_BeatsF2 L_BeatsF3.
Open Scope Q_scope.

Lemma iter_S : forall (f : Q -> Q) k x, Nat.iter (S k) f x = f (Nat.iter k f x).
Proof. reflexivity. Qed.
Lemma iter_shift : forall (f : Q -> Q) k x, Nat.iter k f (f x) = Nat.iter (S k) f x.
Proof. intros f. induction k as [|k IH]; intros x; [reflexivity|]. rewrite (iter_S f k). rewrite IH. reflexivity. Qed.
Definition plain (x q : Q) : bstate := mkBS x q [] true None [].
Lemma plain_next : forall x q, next_beat_f (plain x q) = plain (after_f x q) q.
Proof. reflexivity. Qed.
Lemma runsf_plain : forall stop q n x, (forall k, (k < n)%nat -> Nat.iter k (fun x => after_f x q) x < stop) -> stop <= Nat.iter n (fun x => after_f x q) x ->
  runsf stop (plain x q) (map (fun k => Nat.iter k (fun x => after_f x q) x) (List.seq 0 n)).
Proof.
  intros stop q. assert (SH : forall n x, Nat.iter n (fun x => after_f x q) (after_f x q) = Nat.iter (S n) (fun x => after_f x q) x) by (intros n x; apply (iter_shift (fun x => after_f x q))).
  induction n as [|n IH]; intros x H1 H2; [apply RF0; exact H2|]. cbn [List.seq map]. change (Nat.iter 0 (fun x => after_f x q) x) with (b_last (plain x q)). apply RFS; [apply (H1 O); lia|]. rewrite plain_next.
  rewrite <- seq_shift, map_map. erewrite map_ext; [apply IH|].
  - intros k K. rewrite SH. apply H1. lia.
  - rewrite SH. exact H2.
  - intros k. symmetry. apply SH.
Qed.
Lemma plain_runs : forall stop st l, runsf stop st l -> forall x q, st = plain x q ->
  exists n, l = map (fun k => Nat.iter k (fun x => after_f x q) x) (List.seq 0 n) /\ (forall k, (k < n)%nat -> Nat.iter k (fun x => after_f x q) x < stop) /\ stop <= Nat.iter n (fun x => after_f x q) x.
Proof.
  intros stop st l R. induction R as [st H|st l H R IH]; intros x q ->.
  - exists O. split; auto. split; [intros; lia|]. exact H.
  - destruct (IH (after_f x q) q (plain_next x q)) as [n [E [A B]]].
    assert (SH : forall n x, Nat.iter n (fun x => after_f x q) (after_f x q) = Nat.iter (S n) (fun x => after_f x q) x) by (intros n0 x0; apply (iter_shift (fun x => after_f x q))).
    exists (S n). split; [|split].
    + cbn [List.seq map]. rewrite <- seq_shift, map_map. f_equal. rewrite E. apply map_ext. intros k. apply SH.
    + intros [|k] K; [exact H|]. rewrite <- SH. apply A. lia.
    + rewrite <- SH. exact B.
Qed.
Lemma init_plain : forall t0 q start, beats_init [(t0, q)] (sort_sigs []) start = Ok (plain start q).
Proof. reflexivity. Qed.
Lemma f_plain : forall t0 q others start l, let step := fun x => fl (x + fl (60 / q)) in let stop := piece_end [(t0, q)] [] others in
  beats_f_are [(t0, q)] [] others start l <->
  exists n, l = map (fun k => Nat.iter k step start) (List.seq 0 n) /\ (forall k, (k < n)%nat -> Nat.iter k step start < stop) /\ stop <= Nat.iter n step start.
Proof.
  intros t0 q others start l step stop. rewrite (beats_f_runs _ _ _ _ _ _ (init_plain t0 q start)). change (sort_sigs []) with (@nil tsig). fold stop. split.
  - intros R. exact (plain_runs stop _ l R start q eq_refl).
  - intros [n [-> [A B]]]. exact (runsf_plain stop q n start A B).
Qed.

(** ** drift *)
Lemma after_plain : forall x q, 0 < q -> 0 < 60 / q /\ Qabs (after_f x q - (x + 60 / q)) <= Qabs x * u + (60 / q) * (18 * u).
Proof. intros x q Q0. exact (after_f_near x None q I Q0). Qed.
Lemma iter_nonneg : forall q k x, 0 < q -> 0 <= x -> 0 <= Nat.iter k (fun x => after_f x q) x.
Proof.
  intros q k x Q0 X. induction k as [|k IH]; auto. rewrite (iter_S (fun x => after_f x q)); cbv beta.
  set (b := Nat.iter k _ x) in *. clearbody b. unfold after_f. apply fl_nonneg. assert (0 <= fl (60 / q)) by (apply fl_nonneg; apply Qle_shift_div_l; lra). lra.
Qed.
Lemma iter_drift : forall q stop x k, 0 < q -> 0 <= x -> (forall j, (j < k)%nat -> Nat.iter j (fun x => after_f x q) x < stop) ->
  Qabs (Nat.iter k (fun x => after_f x q) x - (x + inject_Z (Z.of_nat k) * (60 / q))) <= inject_Z (Z.of_nat k) * ((stop + 60 / q) * (18 * u)).
Proof.
  intros q stop x k Q0 X. induction k as [|k IH]; intros H.
  - cbn [Nat.iter nat_rect]. change (inject_Z (Z.of_nat 0)) with 0. setoid_replace (x - (x + 0 * (60 / q))) with 0 by ring. change (Qabs 0) with 0. rewrite Qmult_0_l. lra.
  - specialize (IH ltac:(intros; apply H; lia)). pose proof (H k ltac:(lia)) as L. pose proof (iter_nonneg q k x Q0 X) as NN.
    rewrite (iter_S (fun x => after_f x q)); cbv beta. set (b := Nat.iter k _ x) in *. clearbody b.
    destruct (after_plain b q Q0) as [P0 A]. set (P := 60 / q) in *. clearbody P. set (b' := after_f b q) in *. clearbody b'.
    rewrite (Qabs_pos b NN) in A. rewrite Nat2Z.inj_succ. unfold Z.succ. rewrite inject_Z_plus. change (inject_Z 1) with 1. set (K := inject_Z (Z.of_nat k)) in *. clearbody K.
    apply Qabs_Qle_condition in A. apply Qabs_Qle_condition in IH. apply Qabs_Qle_condition. set (D := (stop + P) * (18 * u)) in *.
    assert (DE : b * u + P * (18 * u) <= D) by (unfold D; rewrite U_eq; lra). clearbody D.
    setoid_replace ((K + 1) * P) with (K * P + P) by ring. setoid_replace ((K + 1) * D) with (K * D + D) by ring. set (KP := K * P) in *. set (KD := K * D) in *. clearbody KP KD. lra.
Qed.
Lemma div47 : forall n stop P, 0 <= n -> 0 <= stop + P -> n * ((stop + P) * (18 * u)) <= n * (stop + P) / inject_Z (2 ^ 48).
Proof.
  intros n stop P N S. assert (E : n * (stop + P) / inject_Z (2 ^ 48) == n * (stop + P) * (32 * u)) by (unfold Qdiv; assert (Z1 : / inject_Z (2 ^ 48) == 32 * u) by reflexivity; rewrite Z1; reflexivity).
  rewrite E. assert (0 <= n * (stop + P)) by (apply Qmult_le_0_compat; auto). setoid_replace (n * ((stop + P) * (18 * u))) with (n * (stop + P) * (18 * u)) by ring. rewrite U_eq. lra.
Qed.
Lemma f_drift : forall t0 q others start l, 0 < q -> 0 <= start -> beats_f_are [(t0, q)] [] others start l ->
  forall k b, nth_error l k = Some b -> Qabs (b - (start + inject_Z (Z.of_nat k) * (60 / q))) <= inject_Z (Z.of_nat k) * (piece_end [(t0, q)] [] others + 60 / q) / inject_Z (2 ^ 48).
Proof.
  intros t0 q others start l Q0 S0 B k b N. apply f_plain in B. destruct B as [n [-> [A _]]]. set (stop := piece_end _ _ _) in *. clearbody stop.
  assert (KN : (k < n)%nat). { assert (X : nth_error (map (fun k => Nat.iter k (fun x => fl (x + fl (60 / q))) start) (List.seq 0 n)) k <> None) by congruence. apply nth_error_Some in X. rewrite map_length, seq_length in X. auto. }
  assert (E : b = Nat.iter k (fun x => after_f x q) start).
  { rewrite (map_nth_error (fun k => Nat.iter k (fun x => fl (x + fl (60 / q))) start) k (List.seq 0 n) (d := k)) in N; [injection N as <-; reflexivity|]. rewrite nth_error_nth' with (d := O); [rewrite seq_nth; auto|rewrite seq_length; auto]. }
  subst b. eapply Qle_trans; [apply (iter_drift q stop); auto; intros j J; apply A; lia|]. apply div47; [change 0 with (inject_Z 0); rewrite <- Zle_Qle; lia|].
  pose proof (A O ltac:(lia)) as L. cbn in L. assert (0 < 60 / q) by (apply Qlt_shift_div_l; lra). lra.
Qed.
Lemma f_count : forall t0 q others start l, 0 < q -> 0 <= start -> let stop := piece_end [(t0, q)] [] others in
  start < stop -> stop * q <= inject_Z (2 ^ 24) -> beats_f_are [(t0, q)] [] others start l ->
  let N := Qceiling ((stop - start) * q / 60) in (N - 1 <= Z.of_nat (List.length l) <= N + 1)%Z.
Proof.
  intros t0 q others start l Q0 S0 stop SS BIG B N. apply f_plain in B. fold stop in B. destruct B as [n [-> [A C]]]. rewrite map_length, seq_length. clearbody stop.
  set (P := 60 / q). assert (P0 : 0 < P) by (apply Qlt_shift_div_l; lra).
  assert (PQ : P * q == 60) by (unfold P; field; lra).
  assert (XE : (stop - start) * q / 60 * P == stop - start) by (unfold P; field; lra).
  set (X := (stop - start) * q / 60) in *.
  assert (SB : stop <= 279621 * P).
  { apply Qmult_lt_0_le_reg_r with q; auto. rewrite <- Qmult_assoc, PQ. eapply Qle_trans; [exact BIG|]. change (inject_Z (2 ^ 24)) with 16777216. lra. }
  assert (XB : 0 < X /\ X <= 279621).
  { split; [apply Qmult_lt_0_compat; [apply Qmult_lt_0_compat; lra|reflexivity]|]. apply Qmult_lt_0_le_reg_r with P; auto. rewrite XE. lra. }
  pose proof (iter_drift q stop start n Q0 S0 A) as D2. fold P in D2.
  destruct n as [|n']; [cbn in C; lra|]. pose proof (A n' ltac:(lia)) as L. pose proof (iter_drift q stop start n' Q0 S0 ltac:(intros; apply A; lia)) as D1. fold P in D1.
  change (fun x => fl (x + fl (60 / q))) with (fun x => after_f x q) in L, C. set (b1 := Nat.iter n' _ start) in *. set (b2 := Nat.iter (S n') _ start) in *. clearbody b1 b2.
  rewrite Nat2Z.inj_succ in *. unfold Z.succ in *. rewrite inject_Z_plus in D2. change (inject_Z 1) with 1 in D2. set (K := inject_Z (Z.of_nat n')) in *.
  assert (K0 : 0 <= K) by (unfold K; change 0 with (inject_Z 0); rewrite <- Zle_Qle; lia).
  apply Qabs_Qle_condition in D1, D2. 
  assert (E1 : (stop + P) * (18 * u) <= P * (1 # 1000000000)) by (rewrite U_eq; lra).
  assert (D1' : K * ((stop + P) * (18 * u)) <= K * (P * (1 # 1000000000))) by (rewrite (Qmult_comm K), (Qmult_comm K (P * _)); apply Qmult_le_compat_r; auto).
  assert (D2' : (K + 1) * ((stop + P) * (18 * u)) <= (K + 1) * (P * (1 # 1000000000))) by (rewrite (Qmult_comm (K + 1)), (Qmult_comm (K + 1) (P * _)); apply Qmult_le_compat_r; lra).
  set (T1 := K * ((stop + P) * (18 * u))) in *. set (T2 := (K + 1) * ((stop + P) * (18 * u))) in *. clearbody T1 T2.
  assert (KB : K <= 300000).
  { apply Qmult_lt_0_le_reg_r with ((999999999 # 1000000000) * P); [apply Qmult_lt_0_compat; [reflexivity|auto]|].
    assert (Y : K * ((999999999 # 1000000000) * P) == K * P - K * (P * (1 # 1000000000))) by ring. rewrite Y. set (KP := K * P) in *. clearbody KP. set (Z1 := K * (P * (1 # 1000000000))) in *. clearbody Z1. lra. }
  assert (Y1 : K * (P * (1 # 1000000000)) <= (1 # 1000) * P).
  { setoid_replace (K * (P * (1 # 1000000000))) with (K * (1 # 1000000000) * P) by ring. apply Qmult_le_compat_r; lra. }
  assert (Y2 : (K + 1) * (P * (1 # 1000000000)) <= (1 # 1000) * P).
  { setoid_replace ((K + 1) * (P * (1 # 1000000000))) with ((K + 1) * (1 # 1000000000) * P) by ring. apply Qmult_le_compat_r; lra. }
  assert (F1 : K - (1 # 1000) < X).
  { apply Qmult_lt_r with P; auto. setoid_replace ((K - (1 # 1000)) * P) with (K * P - (1 # 1000) * P) by ring. rewrite XE. lra. }
  assert (F2 : X <= K + 1 + (1 # 1000)).
  { apply Qmult_lt_0_le_reg_r with P; auto. setoid_replace ((K + 1 + (1 # 1000)) * P) with ((K + 1) * P + (1 # 1000) * P) by ring. rewrite XE. lra. }
  destruct (Qceiling_bounds X) as [G1 G2]. unfold N. clear - F1 F2 G1 G2. unfold K in *.
  split.
  - assert (inject_Z (Qceiling X - 1) < inject_Z (Z.of_nat n' + 1) + 1); [|rewrite <- (inject_Z_plus _ 1) in H; rewrite <- Zlt_Qlt in H; lia].
    rewrite inject_Z_plus. unfold Z.sub. rewrite inject_Z_plus. change (inject_Z (-(1))) with (-(1)). change (inject_Z 1) with 1. lra.
  - assert (inject_Z (Z.of_nat n') - 1 < inject_Z (Qceiling X)); [lra|]. assert (inject_Z (Z.of_nat n') < inject_Z (Qceiling X + 1)) by (rewrite inject_Z_plus; change (inject_Z 1) with 1; lra). rewrite <- Zlt_Qlt in H0. lia.
Qed.
