(** Lemmas about M_BeatsF: one beat across tempo changes, with rounding. *)
From Coq Require Import Sorted Permutation Lia Lqa Qfield Qabs Qpower Qround.
From Verif Require Import PyBase M_Float M_Beats M_BeatsF S_Beats S_Snap S_ShiftF S_BeatsF L_Base L_Note L_Float L_Float2 L_Snap L_NoteF L_NoteF2 L_UtilsF L_UtilsF2 L_UtilsF3 P_Rounding L_ShiftF L_Beats L_Beats2 L_Beats3 L_BeatsF L_BeatsF2 L_BeatsF3 L_BeatsF7.
Open Scope Q_scope.

Lemma div_small : forall x P b lo, 0 < lo -> lo <= P -> 0 <= b -> Qabs x <= b * lo -> Qabs (x / P) <= b.
Proof.
  intros x P b lo L PL B H. assert (P0 : 0 < P) by lra. assert (b * lo <= b * P) by (rewrite !(Qmult_comm b); apply Qmult_le_compat_r; auto).
  apply Qabs_Qle_condition in H. apply Qabs_Qle_condition. split.
  - apply Qle_shift_div_l; auto. assert (E : - b * P == - (b * P)) by ring. rewrite E. lra.
  - apply Qle_shift_div_r; auto. lra.
Qed.
Lemma abs_le : forall x b, Qabs x <= b <-> - b <= x /\ x <= b.
Proof. intros. apply Qabs_Qle_condition. Qed.

Section beat.
Variables (sig : option tsig) (lo hi T E G last : Q) (Phi : Q -> Q).
Hypotheses (GD : good sig) (L0 : 0 < lo) (LH : lo <= hi) (N0 : 0 <= last) (T0 : last + 8 * hi <= T)
  (EE : u * T == E * lo) (E0 : 0 <= E) (E1 : E <= 1 # 1000) (GG : G * lo == E * hi)
  (SL : forall x y, x <= y -> (y - x) / hi <= Phi y - Phi x /\ Phi y - Phi x <= (y - x) / lo).
Let D := 166 * (E * hi).
Let f := bpm_of_f sig.
Let P q := 60 / bpm_of sig q.
Definition rep (q : Q) (rest : list (Q * Q)) (tc : Q) : Prop :=
  (forall y z, tc <= y -> y <= z -> Phi z - Phi y == beats_from sig q rest y z) /\ later tc rest /\ sortedt rest /\ in_range sig lo hi q rest.
Lemma EG : E <= G.
Proof. assert (H : E * lo <= G * lo) by (rewrite GG, !(Qmult_comm E); apply Qmult_le_compat_r; auto). apply Qmult_le_r in H; auto. Qed.
Lemma rep_P : forall q rest tc, rep q rest tc -> 0 < q /\ lo <= P q /\ P q <= hi.
Proof. intros q rest tc [_ [_ [_ R]]]. apply R. auto. Qed.
Lemma rep_lin : forall q rest tc y, rep q rest tc -> tc <= y -> later y rest -> Phi y - Phi tc == (y - tc) / P q.
Proof.
  intros q rest tc y R TY LY. destruct (rep_P _ _ _ R) as [Q0 _]. destruct R as [R1 [R2 [R3 R4]]]. rewrite (R1 tc y) by lra. unfold beats_from, P. rewrite <- linear_piece by auto. 
  destruct rest as [|[t q'] r]; cbn [quarters_from]; [reflexivity|]. pose proof (R2 _ (or_introl eq_refl)) as A. pose proof (LY _ (or_introl eq_refl)) as B. cbn [fst] in *.
  destruct (Qle_bool t tc) eqn:TT.
  - apply Qle_bool_iff in TT. rewrite (quarters_empty r q' tc y) by lra. setoid_replace (y - tc) with 0 by lra. field.
  - replace (Qle_bool y t) with true by (symmetry; apply Qle_bool_iff; auto). reflexivity.
Qed.
Lemma rep_next : forall q t q' r tc, rep q ((t, q') :: r) tc -> rep q' r t.
Proof.
  intros q t q' r tc [R1 [R2 [R3 R4]]]. pose proof (R2 _ (or_introl eq_refl)) as A. cbn [fst] in A. pose proof (StronglySorted_inv R3) as [S1 S2]. rewrite Forall_forall in S2. split; [|split; [|split; auto]].
  - intros y z TY YZ. rewrite (R1 y z) by lra. unfold beats_from. cbn [quarters_from]. replace (Qle_bool t y) with true by (symmetry; apply Qle_bool_iff; auto). reflexivity.
  - intros c I. apply (S2 c I).
  - intros z [->|Z]; apply R4; right; cbn; auto.
Qed.
(** What a crossing preserves. *)
Definition mid (tc q nb rem a : Q) : Prop :=
  Qabs nb <= last + 3 * hi /\ -(1) <= rem /\ rem <= 2 /\ (forall p, lo <= p -> p <= hi -> tc - 160 * (E * hi) <= nb + rem * p) /\
  Qabs (Phi tc + (nb - tc) / P q + rem - (Phi last + 1)) <= a.
Lemma reach_mid : forall tc q nb rem a, 0 < q -> lo <= P q -> P q <= hi -> mid tc q nb rem a -> Qabs (reach_f nb rem (f q) - (nb + rem * P q)) <= 6 * (E * lo).
Proof.
  intros tc q nb rem a Q0 P1 P2 [M1 [M2 [M3 _]]]. pose proof (reach_near sig q GD Q0 nb rem) as R. fold f in R. fold (P q) in R.
  assert (A2 : Qabs rem <= 2) by (apply abs_le; lra). pose proof (Qabs_nonneg rem) as A0.
  assert (B : Qabs rem * P q <= 2 * hi) by (apply Qle_trans with (2 * P q); [apply Qmult_le_compat_r; lra|lra]).
  rewrite <- EE. revert R M1 B. generalize (Qabs (reach_f nb rem (f q) - (nb + rem * P q))) (Qabs nb) (Qabs rem * P q). clear - T0 L0 LH N0. rewrite U_eq. intros. lra.
Qed.
Lemma cross_step : forall tc q t q' r nb rem a, rep q ((t, q') :: r) tc -> last <= t -> mid tc q nb rem a -> a + 128 * E <= 1 # 4 -> t <= reach_f nb rem (f q) ->
  let ratio := fl (fl (t - nb) / fl (60 / f q)) in mid t q' (reach_f nb ratio (f q)) (fl (rem - ratio)) (a + 128 * E).
Proof.
  intros tc q t q' r nb rem a RP LT MID A4 TR ratio. destruct (rep_P _ _ _ RP) as [Q0 [P1 P2]]. destruct (rep_P _ _ _ (rep_next _ _ _ _ _ RP)) as [Q0' [P1' P2']].
  pose proof (reach_mid _ _ _ _ _ Q0 P1 P2 MID) as RM. destruct MID as [M1 [M2 [M3 [M4 M5]]]].
  assert (UT : u * T <= lo / 1000) by (rewrite EE; setoid_replace (lo / 1000) with ((1 # 1000) * lo) by (unfold Qdiv; change (/ 1000) with (1 # 1000); ring); apply Qmult_le_compat_r; lra).
  assert (LO : lo / 1000 == (1 # 1000) * lo) by (unfold Qdiv; change (/ 1000) with (1 # 1000); ring). rewrite LO in UT.
  assert (EL : E * lo <= (1 # 1000) * lo) by (apply Qmult_le_compat_r; lra).
  assert (RPb : rem * P q <= 2 * hi). { apply Qle_trans with (2 * P q); [apply Qmult_le_compat_r; lra|lra]. }
  pose proof RM as RM'. apply abs_le in RM'. pose proof M1 as M1'. apply abs_le in M1'.
  assert (tb : t <= T) by (set (w := rem * P q) in *; clearbody w; lra).
  pose proof (ratio_near sig q GD Q0 (t - nb)) as RN. cbn zeta in RN. fold f in RN. fold ratio in RN. fold (P q) in RN.
  assert (dB : Qabs (t - nb) <= 2 * T) by (apply abs_le; lra).
  assert (R40 : Qabs (ratio * P q - (t - nb)) <= 40 * (E * lo)). { rewrite <- EE. revert RN dB. generalize (Qabs (ratio * P q - (t - nb))) (Qabs (t - nb)). clear. rewrite U_eq. intros. lra. }
  assert (RB : Qabs (ratio * P q) <= (21 # 10) * T). { pose proof (abs_sub (ratio * P q) (t - nb)) as S. rewrite <- EE in R40. revert S R40 dB. generalize (Qabs (ratio * P q)) (Qabs (ratio * P q - (t - nb))) (Qabs (t - nb)). clear - T0 L0 LH N0. rewrite U_eq. intros. lra. }
  pose proof (reach_near sig q GD Q0 nb ratio) as RR. fold f in RR. fold (P q) in RR. set (nb' := reach_f nb ratio (f q)) in *.
  rewrite Qabs_Qmult, (Qabs_pos (P q)) in RB by lra.
  assert (NB : Qabs (nb' - t) <= 80 * (E * lo)).
  { pose proof (abs_tri3 nb' (nb + ratio * P q) t) as S. setoid_replace (nb + ratio * P q - t) with (ratio * P q - (t - nb)) in S by ring. rewrite <- EE in *. revert RR RB M1 S R40. generalize (Qabs (nb' - t)) (Qabs (nb' - (nb + ratio * P q))) (Qabs (ratio * P q - (t - nb))) (Qabs nb) (Qabs ratio * P q). clear - T0 L0 LH N0. rewrite U_eq. intros. lra. }
  pose proof (flb (rem - ratio)) as FR. set (rem' := fl (rem - ratio)) in *.
  assert (TL0 : 0 < T) by lra.
  assert (EB : forall k, 0 <= k -> k * E * lo == k * (u * T)) by (intros; rewrite EE; ring).
  assert (RT : Qabs (rem - ratio) * u <= 3 * E).
  { assert (H : Qabs ((rem - ratio) * P q) <= 3 * (T / lo) * lo).
    { setoid_replace (3 * (T / lo) * lo) with (3 * T) by (field; lra). setoid_replace ((rem - ratio) * P q) with (rem * P q - ratio * P q) by ring.
      pose proof (Qabs_triangle (rem * P q) (- (ratio * P q))) as S. rewrite Qabs_opp in S. setoid_replace (rem * P q + - (ratio * P q)) with (rem * P q - ratio * P q) in S by ring.
      assert (Qabs (rem * P q) <= 2 * hi). { rewrite Qabs_Qmult, (Qabs_pos (P q)) by lra. apply Qle_trans with (2 * P q); [apply Qmult_le_compat_r; [apply abs_le; lra|lra]|lra]. }
      assert (RBx : Qabs (ratio * P q) <= (21 # 10) * T) by (rewrite Qabs_Qmult, (Qabs_pos (P q)) by lra; auto). lra. }
    assert (X : Qabs ((rem - ratio) * P q / P q) <= 3 * (T / lo)). { apply (div_small _ (P q) _ lo); auto. assert (0 <= T / lo) by (apply Qle_shift_div_l; lra). lra. }
    setoid_replace ((rem - ratio) * P q / P q) with (rem - ratio) in X by (field; lra).
    apply Qle_trans with (3 * (T / lo) * u); [apply Qmult_le_compat_r; [auto|discriminate]|]. apply Qle_lteq. right. setoid_replace (3 * (T / lo) * u) with (3 * (u * T) / lo) by (field; lra). rewrite EE. field. lra. }
  assert (RL : - (80 * E) <= rem').
  { assert (H : - (46 * E) * P q <= (rem - ratio) * P q).
    { assert (46 * E * lo <= 46 * E * P q) by (rewrite !(Qmult_comm (46 * E)); apply Qmult_le_compat_r; lra). apply abs_le in R40. setoid_replace (- (46 * E) * P q) with (- (46 * E * P q)) by ring. setoid_replace ((rem - ratio) * P q) with (rem * P q - ratio * P q) by ring.
      setoid_replace (46 * E * lo) with (46 * (E * lo)) in H by ring. set (w := rem * P q) in *. set (w2 := ratio * P q) in *. set (w3 := 46 * E * P q) in *. set (w4 := E * lo) in *. clearbody w w2 w3 w4. lra. }
    apply Qmult_le_r in H; [|lra]. apply abs_le in FR. set (w := Qabs (rem - ratio) * u) in *. clearbody w. lra. }
  assert (FT : Phi t - Phi tc == (t - tc) / P q).
  { apply (rep_lin q ((t, q') :: r)); auto; [apply (proj1 (proj2 RP) (t, q')); left; auto|]. destruct RP as [_ [_ [S _]]]. pose proof (StronglySorted_inv S) as [_ S2]. rewrite Forall_forall in S2. intros c [<-|I]; cbn [fst]; [lra|]. apply (S2 c I). }
  assert (AA : Qabs (Phi t + (nb' - t) / P q' + rem' - (Phi last + 1)) <= a + 128 * E).
  { set (A := Phi tc + (nb - tc) / P q + rem - (Phi last + 1)) in *.
    setoid_replace (Phi t + (nb' - t) / P q' + rem' - (Phi last + 1)) with (A + - ((ratio * P q - (t - nb)) / P q) + (nb' - t) / P q' + (rem' - (rem - ratio))).
    2: { unfold A. setoid_replace (Phi t) with (Phi tc + (t - tc) / P q) by lra. field. split; lra. }
    assert (X1 : Qabs ((ratio * P q - (t - nb)) / P q) <= 40 * E) by (apply (div_small _ _ _ lo); auto; [lra|]; setoid_replace (40 * E * lo) with (40 * (E * lo)) by ring; auto).
    assert (X2 : Qabs ((nb' - t) / P q') <= 80 * E) by (apply (div_small _ _ _ lo); auto; [lra|]; setoid_replace (80 * E * lo) with (80 * (E * lo)) by ring; auto).
    set (x1 := (ratio * P q - (t - nb)) / P q) in *. set (x2 := (nb' - t) / P q') in *. set (x3 := rem' - (rem - ratio)) in *. apply abs_le in X1, X2, M5, FR. set (w := Qabs (rem - ratio) * u) in *. clearbody A x1 x2 x3 w. apply abs_le. lra. }
  destruct (SL last t LT) as [S1 S2]. pose proof AA as AA'. apply abs_le in AA'.
  assert (X2 : Qabs ((nb' - t) / P q') <= 80 * E) by (apply (div_small _ _ _ lo); auto; [lra|]; setoid_replace (80 * E * lo) with (80 * (E * lo)) by ring; auto).
  apply abs_le in X2. assert (H0 : 0 <= (t - last) / hi) by (apply Qle_shift_div_l; lra).
  assert (T2 : (t - last) / hi <= 2) by (set (x2 := (nb' - t) / P q') in *; set (x3 := (t - last) / hi) in *; clearbody x2 x3; lra).
  assert (T3 : t - last <= 2 * hi). { assert (Y : (t - last) / hi * hi == t - last) by (field; lra). rewrite <- Y. apply Qmult_le_compat_r; lra. }
  apply abs_le in NB. split; [|split; [|split; [|split; auto]]].
  - apply abs_le. lra.
  - lra.
  - set (x2 := (nb' - t) / P q') in *. set (x3 := (t - last) / hi) in *. clearbody x2 x3. lra.
  - intros p p1 p2. assert (- (80 * E) * p <= rem' * p) by (apply Qmult_le_compat_r; lra). assert (80 * E * p <= 80 * E * hi) by (rewrite !(Qmult_comm (80 * E)); apply Qmult_le_compat_r; lra).
    assert (E * lo <= E * hi) by (rewrite !(Qmult_comm E); apply Qmult_le_compat_r; lra).
    setoid_replace (- (80 * E) * p) with (- (80 * E * p)) in H by ring. setoid_replace (80 * E * hi) with (80 * (E * hi)) in H1 by ring. lra.
Qed.
(** The beat itself. *)
Lemma final_step : forall tc q rest nb rem a y, rep q rest tc -> mid tc q nb rem a -> Qabs (y - (nb + rem * P q)) <= 6 * (E * lo) -> later y rest ->
  tc <= y + D /\ Qabs (Phi y - (Phi last + 1)) <= a + 172 * G.
Proof.
  intros tc q rest nb rem a y RP MID YB LY. destruct (rep_P _ _ _ RP) as [Q0 [P1 P2]]. destruct MID as [M1 [M2 [M3 [M4 M5]]]].
  assert (EH : E * lo <= E * hi) by (rewrite !(Qmult_comm E); apply Qmult_le_compat_r; lra). pose proof EG as EG1.
  assert (TY : tc <= y + D) by (specialize (M4 (P q) P1 P2); apply abs_le in YB; unfold D; lra). split; auto.
  assert (X1 : Qabs ((y - (nb + rem * P q)) / P q) <= 6 * E) by (apply (div_small _ _ _ lo); auto; [lra|]; setoid_replace (6 * E * lo) with (6 * (E * lo)) by ring; auto).
  set (A := Phi tc + (nb - tc) / P q + rem - (Phi last + 1)) in *.
  assert (EQ : Phi y - (Phi last + 1) == A + (y - (nb + rem * P q)) / P q + (Phi y - Phi tc - (y - tc) / P q)) by (unfold A; field; lra).
  assert (X2 : Qabs (Phi y - Phi tc - (y - tc) / P q) <= 166 * G).
  { destruct (Qlt_le_dec y tc) as [C|C].
    - destruct (SL y tc ltac:(lra)) as [S1 S2]. destruct (div_bounds (tc - y) (P q) lo hi ltac:(lra) L0 P1 P2) as [B1 B2].
      assert (B3 : (tc - y) / lo <= 166 * G). { apply Qle_shift_div_r; auto. setoid_replace (166 * G * lo) with (166 * (G * lo)) by ring. rewrite GG. unfold D in TY. lra. }
      assert (B4 : 0 <= (tc - y) / hi) by (apply Qle_shift_div_l; lra). setoid_replace ((y - tc) / P q) with (- ((tc - y) / P q)) by (field; lra).
      set (v1 := (tc - y) / P q) in *. set (v2 := (tc - y) / lo) in *. set (v3 := (tc - y) / hi) in *. clearbody v1 v2 v3. apply abs_le. lra.
    - rewrite (rep_lin q rest tc y RP C LY). setoid_replace ((y - tc) / P q - (y - tc) / P q) with 0 by ring. cbn. lra. }
  rewrite EQ. set (x1 := (y - (nb + rem * P q)) / P q) in *. set (x2 := Phi y - Phi tc - (y - tc) / P q) in *. apply abs_le in X1, X2, M5. clearbody A x1 x2. apply abs_le. lra.
Qed.
Lemma cross_near : forall rest q nb rem tc a y q2 rest2, rep q rest tc -> (forall c, In c rest -> last <= fst c) -> mid tc q nb rem a -> a + 128 * E * inject_Z (Z.of_nat (List.length rest)) <= 1 # 4 ->
  cross_f f nb rem q rest = (y, (q2, rest2)) ->
  (exists tc2, rep q2 rest2 tc2 /\ later y rest2 /\ tc2 <= y + D) /\ (List.length rest2 <= List.length rest)%nat /\
  Qabs (Phi y - (Phi last + 1)) <= a + 128 * E * inject_Z (Z.of_nat (List.length rest)) + 172 * G.
Proof.
  induction rest as [|[t q'] r IH]; intros q nb rem tc a y q2 rest2 RP LL MID A4 C; destruct (rep_P _ _ _ RP) as [Q0 [P1 P2]]; cbn [cross_f] in C.
  - injection C as <- <- <-. pose proof (reach_mid _ _ _ _ _ Q0 P1 P2 MID) as RM. destruct (final_step _ _ _ _ _ _ _ RP MID RM) as [F1 F2]; [intros c []|]. split; [|split; auto].
    + exists tc. split; auto. split; auto. intros c [].
    + change (inject_Z (Z.of_nat (List.length (@nil (Q * Q))))) with 0. setoid_replace (a + 128 * E * 0 + 172 * G) with (a + 172 * G) by ring. auto.
  - assert (LEN : inject_Z (Z.of_nat (List.length ((t, q') :: r))) == inject_Z (Z.of_nat (List.length r)) + 1) by (cbn [List.length]; rewrite Nat2Z.inj_succ; unfold Z.succ; rewrite inject_Z_plus; reflexivity).
    assert (NN : 0 <= inject_Z (Z.of_nat (List.length r))) by (change 0 with (inject_Z 0); rewrite <- Zle_Qle; lia). rewrite LEN in *. set (n := inject_Z (Z.of_nat (List.length r))) in *.
    assert (EN : 0 <= E * n) by (apply Qmult_le_0_compat; auto). setoid_replace (128 * E * (n + 1)) with (128 * (E * n) + 128 * E) in A4 by ring.
    destruct (Qle_bool t (reach_f nb rem (f q))) eqn:TB.
    + apply Qle_bool_iff in TB. pose proof (cross_step tc q t q' r nb rem a RP (LL _ (or_introl eq_refl)) MID ltac:(lra) TB) as ST. cbn zeta in ST. apply rep_next in RP.
      destruct (IH q' _ _ t (a + 128 * E) y q2 rest2 RP (fun c I => LL c (or_intror I)) ST) as [I1 [I2 I3]]; auto.
      * setoid_replace (128 * E * n) with (128 * (E * n)) by ring. lra.
      * split; auto. split; [cbn [List.length]; lia|]. setoid_replace (a + 128 * E * (n + 1) + 172 * G) with (a + 128 * E + 128 * E * n + 172 * G) by ring. auto.
    + apply Qle_bool_false in TB. injection C as <- <- <-. pose proof (reach_mid _ _ _ _ _ Q0 P1 P2 MID) as RM.
      assert (LY : later (reach_f nb rem (f q)) ((t, q') :: r)). { destruct RP as [_ [_ [S _]]]. pose proof (StronglySorted_inv S) as [_ S2]. rewrite Forall_forall in S2. intros c [<-|I]; cbn [fst]; [lra|]. specialize (S2 c I). cbn [fst] in S2. lra. }
      destruct (final_step _ _ _ _ _ _ _ RP MID RM LY) as [F1 F2]. split; [exists tc; auto|]. split; auto. setoid_replace (a + 128 * E * (n + 1) + 172 * G) with (a + 172 * G + 128 * (E * n) + 128 * E) by ring. lra.
Qed.
Lemma mid_start : forall tc q rest, rep q rest tc -> later last rest -> tc <= last + D -> G <= 1 # 1000 -> mid tc q last 1 (166 * G).
Proof.
  intros tc q rest RP LY TD G1. destruct (rep_P _ _ _ RP) as [Q0 [P1 P2]]. assert (DL : D <= (166 # 1000) * lo). { unfold D. rewrite <- GG. assert (G * lo <= (1 # 1000) * lo) by (apply Qmult_le_compat_r; lra). lra. }
  split; [rewrite Qabs_pos; lra|]. split; [lra|]. split; [lra|]. split.
  - intros p p1 p2. assert (0 <= E * hi) by (apply Qmult_le_0_compat; lra). lra.
  - destruct (Qlt_le_dec last tc) as [C|C].
    + destruct (SL last tc ltac:(lra)) as [S1 S2]. destruct (div_bounds (tc - last) (P q) lo hi ltac:(lra) L0 P1 P2) as [B1 B2].
      assert (B3 : (tc - last) / lo <= 166 * G). { apply Qle_shift_div_r; auto. setoid_replace (166 * G * lo) with (166 * (G * lo)) by ring. rewrite GG. unfold D in TD. lra. }
      assert (B4 : 0 <= (tc - last) / hi) by (apply Qle_shift_div_l; lra). setoid_replace ((last - tc) / P q) with (- ((tc - last) / P q)) by (field; lra).
      set (v1 := (tc - last) / P q) in *. set (v2 := (tc - last) / lo) in *. set (v3 := (tc - last) / hi) in *. clearbody v1 v2 v3. apply abs_le. lra.
    + pose proof (rep_lin q rest tc last RP C LY) as X. pose proof EG as EG1. set (v := (last - tc) / P q) in *. clearbody v. apply abs_le. lra.
Qed.
(** One beat by tempo. *)
Lemma tempo_near : forall tc q rest y q2 rest2, rep q rest tc -> later last rest -> tc <= last + D -> G <= 1 # 1000 ->
  let n := inject_Z (Z.of_nat (List.length rest)) in 166 * G + 128 * E * n <= 1 # 4 -> tempo_beat_f f last q rest = (y, (q2, rest2)) ->
  (exists tc2, rep q2 rest2 tc2 /\ later y rest2 /\ tc2 <= y + D) /\ (List.length rest2 <= List.length rest)%nat /\
  Qabs (Phi y - (Phi last + 1)) <= 338 * G + 128 * E * n.
Proof.
  intros tc q rest y q2 rest2 RP LL TD G1 n A4 TB. pose proof (mid_start _ _ _ RP LL TD G1) as MID. destruct (rep_P _ _ _ RP) as [Q0 [P1 P2]].
  assert (NN : 0 <= n) by (change 0 with (inject_Z 0); unfold n; rewrite <- Zle_Qle; lia). assert (EN : 0 <= E * n) by (apply Qmult_le_0_compat; auto).
  assert (AF : later (after_f last (f q)) rest -> (exists tc2, rep q rest tc2 /\ later (after_f last (f q)) rest /\ tc2 <= after_f last (f q) + D) /\ (List.length rest <= List.length rest)%nat /\ Qabs (Phi (after_f last (f q)) - (Phi last + 1)) <= 338 * G + 128 * E * n).
  { intros LY. destruct (final_step tc q rest last 1 (166 * G) (after_f last (f q)) RP MID) as [F1 F2]; auto.
    - pose proof (after_f_near last sig q GD Q0) as AN. cbn zeta in AN. destruct AN as [_ AN]. fold f in AN. fold (P q) in AN. rewrite (Qabs_pos last) in AN by auto. setoid_replace (1 * P q) with (P q) by ring. rewrite <- EE.
      eapply Qle_trans; [exact AN|]. clear - T0 P1 P2 L0 LH N0. rewrite U_eq. lra.
    - split; [exists tc; auto|]. split; auto. setoid_replace (128 * E * n) with (128 * (E * n)) by ring. lra. }
  unfold tempo_beat_f in TB. destruct rest as [|[t q'] r]; [injection TB as <- <- <-; apply AF; intros c []|].
  destruct (Qltb t (after_f last (f q))) eqn:C.
  - destruct (cross_near _ _ _ _ _ _ _ _ _ RP LL MID A4 TB) as [I1 [I2 I3]]. split; auto. split; auto. eapply Qle_trans; [exact I3|]. fold n. set (v := 128 * E * n) in *. clearbody v. lra.
  - injection TB as <- <- <-. apply AF. apply Qltb_ge in C. destruct RP as [_ [_ [S _]]]. pose proof (StronglySorted_inv S) as [_ S2]. rewrite Forall_forall in S2. intros c [<-|I]; cbn [fst]; [lra|]. specialize (S2 c I). cbn [fst] in S2. lra.
Qed.
End beat.
