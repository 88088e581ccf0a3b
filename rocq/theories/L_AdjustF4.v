(** Tick positions in double precision. *)
From Coq Require Import Sorted Permutation Lqa Lia Qabs.
From Verif Require Import PyBase L_Base M_Note L_Note L_Note2 M_Float L_Float L_Float2 L_NoteF L_NoteF2 L_Snap L_UtilsF L_UtilsF3 M_Beats S_Beats L_Beats L_Song2 L_BeatsF7 L_BeatsF8 M_Adjust S_Adjust L_Adjust L_Adjust2 L_Adjust3 L_Adjust4 S_Snap S_AdjustF S_AdjustF2 M_AdjustF L_AdjustF L_AdjustF3.
Open Scope Q_scope.

Lemma abs_prod : forall a b A B, Qabs a <= A -> Qabs b <= B -> Qabs (a * b) <= A * B.
Proof.
  intros a b A B HA HB. rewrite Qabs_Qmult. pose proof (Qabs_nonneg a). pose proof (Qabs_nonneg b).
  apply Qle_trans with (A * Qabs b); [apply Qmult_le_compat_r; auto|]. rewrite !(Qmult_comm A). apply Qmult_le_compat_r; auto. lra.
Qed.
Lemma move_err : forall t t' f f' iv k rho T, 0 <= t -> t <= t' -> t' <= T -> Qabs (f - t) <= 24 * (T * u) -> Qabs (f' - t') <= 24 * (T * u) -> 0 <= k -> k <= rho -> Qabs (iv - k) <= 24 * (rho * u) ->
  Qabs ((f' - f) * iv - k * (t' - t)) <= 80 * (rho * T * u).
Proof.
  intros t t' f f' iv k rho T H0 H1 H2 F F' K0 K1 I. 
  assert (IV : Qabs iv <= 2 * rho). { pose proof (abs_sub iv k) as A. rewrite (Qabs_pos k) in A by auto. assert (24 * (rho * u) <= rho). { setoid_replace (24 * (rho * u)) with (rho * (24 * u)) by ring. setoid_replace rho with (rho * 1) at 2 by ring. rewrite !(Qmult_comm rho). apply Qmult_le_compat_r; [discriminate|lra]. } lra. }
  assert (IV2 : Qabs iv <= (9 # 8) * rho). { pose proof (abs_sub iv k) as A. rewrite (Qabs_pos k) in A by auto. assert (24 * (rho * u) <= rho * (1 # 8)). { setoid_replace (24 * (rho * u)) with (rho * (24 * u)) by ring. rewrite !(Qmult_comm rho). apply Qmult_le_compat_r; [discriminate|lra]. } lra. }
  assert (D : Qabs ((f' - f) - (t' - t)) <= 48 * (T * u)).
  { setoid_replace ((f' - f) - (t' - t)) with ((f' - t') - (f - t)) by ring. pose proof (Qabs_triangle (f' - t') (- (f - t))) as A. rewrite Qabs_opp in A. setoid_replace (f' - t' + - (f - t)) with (f' - t' - (f - t)) in A by ring. lra. }
  setoid_replace ((f' - f) * iv - k * (t' - t)) with (((f' - f) - (t' - t)) * iv + (iv - k) * (t' - t)) by ring.
  eapply Qle_trans; [apply Qabs_triangle|]. pose proof (abs_prod _ _ _ _ D IV2) as A1. assert (TT : Qabs (t' - t) <= T) by (rewrite Qabs_pos; lra). pose proof (abs_prod _ _ _ _ I TT) as A2.
  assert (0 <= rho * T * u) by (apply Qmult_le_0_compat; [apply Qmult_le_0_compat; lra|discriminate]).
  setoid_replace (48 * (T * u) * ((9 # 8) * rho)) with (54 * (rho * T * u)) in A1 by ring. setoid_replace (24 * (rho * u) * T) with (24 * (rho * T * u)) in A2 by ring. lra.
Qed.
Lemma tick_err : forall lt D ls X rho T, Qabs D <= (9 # 8) * T -> Qabs (/ ls) <= (9 # 8) * rho -> 0 <= T -> 0 <= rho -> X == lt + D / ls -> Qabs X <= 2 * (rho * T) ->
  Qabs (fl (lt + fl (fl D / ls)) - X) <= 16 * (rho * T * u).
Proof.
  intros lt D ls X rho T HD HI T0 R0 EX HX. set (iv := / ls) in *. unfold Qdiv in *. fold iv in EX |- *. set (W := rho * T) in *. assert (W0 : 0 <= W) by (apply Qmult_le_0_compat; auto).
  pose proof (flb D) as B1. pose proof (flb (fl D * iv)) as B2. set (y := fl D) in *. set (z := fl (y * iv)) in *. pose proof (flb (lt + z)) as B3. set (k := fl (lt + z)) in *.
  assert (U : u == (1 # 9007199254740992)) by (rewrite U_eq; reflexivity).
  assert (A1 : Qabs (D * iv) <= 2 * W). { pose proof (abs_prod _ _ _ _ HD HI) as A. setoid_replace ((9 # 8) * T * ((9 # 8) * rho)) with ((81 # 64) * W) in A by (unfold W; ring). lra. }
  assert (HD0 : 0 <= Qabs D) by apply Qabs_nonneg.
  assert (A2 : Qabs (y * iv - D * iv) <= 2 * (W * u)).
  { setoid_replace (y * iv - D * iv) with ((y - D) * iv) by ring. assert (B1' : Qabs (y - D) <= (9 # 8) * T * u) by (eapply Qle_trans; [exact B1|]; apply Qmult_le_compat_r; [auto|discriminate]).
    pose proof (abs_prod _ _ _ _ B1' HI) as A. setoid_replace ((9 # 8) * T * u * ((9 # 8) * rho)) with ((81 # 64) * (W * u)) in A by (unfold W; ring). assert (0 <= W * u) by (apply Qmult_le_0_compat; auto; discriminate). lra. }
  clearbody y. clear B1 HD HI.
  assert (Wu : 0 <= W * u /\ W * u <= W * (1 # 1000)) by (split; [apply Qmult_le_0_compat; auto; discriminate|rewrite !(Qmult_comm W); apply Qmult_le_compat_r; [discriminate|auto]]).
  assert (A3 : Qabs (y * iv) <= 3 * W) by (pose proof (abs_sub (y * iv) (D * iv)); lra).
  assert (A4 : Qabs (z - y * iv) <= 3 * (W * u)) by (eapply Qle_trans; [exact B2|]; setoid_replace (3 * (W * u)) with (3 * W * u) by ring; apply Qmult_le_compat_r; [auto|discriminate]).
  clearbody z. clear B2.
  assert (A5 : Qabs (z - D * iv) <= 5 * (W * u)) by (pose proof (abs_tri3 z (y * iv) (D * iv)); lra).
  assert (A6 : Qabs (lt + z - X) <= 5 * (W * u)) by (setoid_replace (lt + z - X) with (z - D * iv) by (rewrite EX; ring); auto).
  assert (A7 : Qabs (lt + z) <= 3 * W) by (pose proof (abs_sub (lt + z) X); lra).
  assert (A8 : Qabs (k - (lt + z)) <= 3 * (W * u)) by (eapply Qle_trans; [exact B3|]; setoid_replace (3 * (W * u)) with (3 * W * u) by ring; apply Qmult_le_compat_r; [auto|discriminate]).
  clearbody k. pose proof (abs_tri3 k (lt + z) X). lra.
Qed.
Lemma near_abs6 : forall a b T, near 6 a b -> b <= T -> Qabs (a - b) <= 24 * (T * u).
Proof.
  intros a b T N H. destruct (near_bnd 6 a b ltac:(cbv; discriminate) N) as [N1 N2]. destruct N as (_ & B0 & _).
  assert (E : b * (4 * inject_Z (Z.of_nat 6) * u) == 24 * (b * u)) by (change (inject_Z (Z.of_nat 6)) with 6; ring). rewrite E in *.
  assert (b * u <= T * u) by (apply Qmult_le_compat_r; [auto|discriminate]). apply abs_le. lra.
Qed.
Lemma inv_near : forall ls k, 0 < k -> near 6 ls (60 / k) -> near 6 (/ ls) (k / 60).
Proof.
  intros ls k K N. assert (P : 0 < 60 / k) by (apply Qlt_shift_div_l; lra). pose proof (near_pos _ _ _ N P) as P2.
  pose proof (near_div 6 ls (60 / k) 1 ltac:(discriminate) P N) as D. eapply near_m; [| |exact D]; [field; lra|field; lra].
Qed.
Lemma scales_placed : forall r g T rho n N F j lt ls pv t0 f0 q0 P, (0 < r)%Z -> 0 <= T -> 0 <= rho -> inject_Z (Z.of_nat n) * (128 * u) <= 1 ->
  Forall2 near_entry F N -> sortedt N -> later t0 N -> (forall c, In c N -> fst c <= T /\ 0 < snd c /\ snd c * inject_Z r / 60 <= rho) -> (j + List.length N <= n)%nat ->
  0 < q0 -> q0 * inject_Z r / 60 <= rho -> near 6 ls (60 / (q0 * inject_Z r)) -> 0 <= t0 -> t0 <= T -> near 6 f0 t0 -> 0 <= pv -> pv <= (9 # 8) * T ->
  0 <= P -> P <= rho * t0 -> (forall t, t0 <= t -> g t == P + inject_Z r * quarters_from q0 N t0 t) ->
  Qabs (lt + (f0 - pv) / ls - P) <= inject_Z (Z.of_nat j) * (128 * (rho * T * u)) ->
  placed r g (inject_Z (Z.of_nat n) * (128 * (rho * T * u))) ls N (scales_from_f r lt ls pv F).
Proof.
  intros r g T rho n. induction N as [|[t q] N IH]; intros F j lt ls pv t0 f0 q0 P R T0 R0 HN F2 So La HB HL Q0 K0 NL H0 H1 NF PV0 PV1 P0 P1 Hg HX; inversion F2 as [|[ft fq] ? F' ? [NT NQ] F2']; subst; cbn [scales_from_f]; [constructor|].
  cbn [fst snd] in NT, NQ. assert (R' : 0 < inject_Z r) by (unfold Qlt; cbn; lia). assert (Lt : t0 <= t) by (apply (La (t, q)); left; auto).
  destruct (HB (t, q) (or_introl eq_refl)) as (B1 & B2 & B3). cbn [fst snd] in B1, B2, B3. inversion So as [|? ? S1 Fo]; subst. rewrite Forall_forall in Fo.
  assert (KP : 0 < q0 * inject_Z r) by (apply Qmult_lt_0_compat; auto). pose proof (inv_near ls _ KP NL) as NI.
  assert (W0 : 0 <= rho * T * u) by (apply Qmult_le_0_compat; [apply Qmult_le_0_compat; auto|discriminate]).
  pose proof (near_abs6 _ _ rho NI K0) as AI. pose proof (near_abs6 _ _ T NF H1) as A0. pose proof (near_abs6 _ _ T NT B1) as A1.
  assert (KN : 0 <= q0 * inject_Z r / 60) by (apply Qle_shift_div_l; lra).
  pose proof (move_err t0 t f0 ft (/ ls) (q0 * inject_Z r / 60) rho T H0 Lt B1 A0 A1 KN K0 AI) as ME.
  set (P' := P + q0 * inject_Z r / 60 * (t - t0)).
  assert (EX : Qabs (lt + (ft - pv) / ls - P') <= inject_Z (Z.of_nat j) * (128 * (rho * T * u)) + 80 * (rho * T * u)).
  { setoid_replace (lt + (ft - pv) / ls - P') with ((lt + (f0 - pv) / ls - P) + ((ft - f0) * / ls - q0 * inject_Z r / 60 * (t - t0))) by (unfold P', Qdiv; ring).
    eapply Qle_trans; [apply Qabs_triangle|]. lra. }
  assert (SJ : inject_Z (Z.of_nat (S j)) == inject_Z (Z.of_nat j) + 1) by (rewrite Nat2Z.inj_succ, <- Z.add_1_r, inject_Z_plus; reflexivity).
  assert (P'0 : 0 <= P') by (unfold P'; assert (0 <= q0 * inject_Z r / 60 * (t - t0)) by (apply Qmult_le_0_compat; lra); lra).
  assert (P'1 : P' <= rho * t). { unfold P'. assert (q0 * inject_Z r / 60 * (t - t0) <= rho * (t - t0)) by (apply Qmult_le_compat_r; lra). lra. }
  assert (Gt : g t == P').
  { rewrite (Hg t Lt). rewrite (quarters_late ((t, q) :: N) q0 t0 t); [unfold P'; field|auto|]. intros c [<- |Hc]; cbn [fst]; [lra|apply (Fo c Hc)]. }
  assert (Hg' : forall x, t <= x -> g x == P' + inject_Z r * quarters_from q N t x).
  { intros x Hx. rewrite <- Gt. rewrite (Hg x) by lra. rewrite (Hg t) by lra. rewrite (quarters_add _ q0 t0 t x) by auto.
    assert (EQ : quarters_from q0 ((t, q) :: N) t x = quarters_from q N t x) by (cbn [quarters_from]; assert (L1 : Qle_bool t t = true) by (apply Qle_bool_iff; lra); rewrite L1; reflexivity). rewrite EQ. ring. }
  pose proof (near_scale r q fq R B2 NQ) as NS.
  assert (TU : T * u <= T * (1 # 1000)) by (rewrite !(Qmult_comm T); apply Qmult_le_compat_r; [discriminate|auto]).
  apply abs_le in A1 as [A1a A1b]. destruct NT as (FT0 & TT0 & NT1 & NT2).
  assert (FT1 : ft <= (9 # 8) * T) by lra.
  destruct (Qeq_bool (tick_scale_f fq r) ls) eqn:E.
  - apply Qeq_bool_iff in E. assert (NL' : near 6 ls (60 / (q * inject_Z r))) by (eapply near_m; [exact E|reflexivity|exact NS]).
    apply placed_same; [cbn [snd]; unfold scale_of; apply near6_within; auto|].
    apply (IH F' (S j) lt ls pv t ft q P'); auto.
    + intros c Hc. apply HB. right; auto.
    + cbn in HL. lia.
    + repeat split; auto.
    + rewrite SJ. lra.
  - set (tick := fl (lt + fl (fl (ft - pv) / ls))).
    assert (JN : inject_Z (Z.of_nat j) * (128 * (rho * T * u)) + 128 * (rho * T * u) <= inject_Z (Z.of_nat n) * (128 * (rho * T * u))).
    { setoid_replace (inject_Z (Z.of_nat j) * (128 * (rho * T * u)) + 128 * (rho * T * u)) with (inject_Z (Z.of_nat (S j)) * (128 * (rho * T * u))) by (rewrite SJ; ring).
      apply Qmult_le_compat_r; [|lra]. rewrite <- Zle_Qle. cbn in HL. lia. }
    assert (JB : inject_Z (Z.of_nat n) * (128 * (rho * T * u)) <= rho * T).
    { setoid_replace (inject_Z (Z.of_nat n) * (128 * (rho * T * u))) with (inject_Z (Z.of_nat n) * (128 * u) * (rho * T)) by ring. setoid_replace (rho * T) with (1 * (rho * T)) at 2 by ring. apply Qmult_le_compat_r; [auto|apply Qmult_le_0_compat; auto]. }
    assert (RT : rho * t <= rho * T) by (rewrite !(Qmult_comm rho); apply Qmult_le_compat_r; auto).
    assert (XB : Qabs (lt + (ft - pv) / ls) <= 2 * (rho * T)) by (pose proof (abs_sub (lt + (ft - pv) / ls) P') as A; rewrite (Qabs_pos P') in A by auto; lra).
    assert (IB : Qabs (/ ls) <= (9 # 8) * rho).
    { pose proof (abs_sub (/ ls) (q0 * inject_Z r / 60)) as A. rewrite (Qabs_pos (q0 * inject_Z r / 60)) in A by auto. assert (24 * (rho * u) <= rho * (1 # 8)) by (setoid_replace (24 * (rho * u)) with (rho * (24 * u)) by ring; rewrite !(Qmult_comm rho); apply Qmult_le_compat_r; [discriminate|auto]). lra. }
    assert (DB : Qabs (ft - pv) <= (9 # 8) * T) by (apply abs_le; lra).
    pose proof (tick_err lt (ft - pv) ls _ rho T DB IB T0 R0 (Qeq_refl _) XB) as TE. fold tick in TE.
    assert (TP : Qabs (tick - P') <= inject_Z (Z.of_nat j) * (128 * (rho * T * u)) + 96 * (rho * T * u)) by (pose proof (abs_tri3 tick (lt + (ft - pv) / ls) P'); lra).
    apply placed_new.
    + cbn [snd]. unfold scale_of. apply near6_within; auto.
    + intro K. apply Qeq_bool_iff in K. congruence.
    + cbn [fst]. pose proof (round_half_even_near tick) as RN. rewrite Qabsb_Qabs in *. pose proof (abs_tri3 (inject_Z (round_half_even tick)) tick (g t)) as A3.
      assert (A4 : Qabs (tick - g t) == Qabs (tick - P')) by (rewrite Gt; reflexivity). rewrite A4 in A3. clear -A3 RN TP JN W0. lra.
    + apply (IH F' (S j) tick (tick_scale_f fq r) ft t ft q P'); auto.
      * intros c Hc. apply HB. right; auto.
      * cbn in HL. lia.
      * repeat split; auto.
      * setoid_replace (tick + (ft - ft) / tick_scale_f fq r - P') with (tick - P') by (unfold Qdiv; ring). rewrite SJ. lra.
Qed.
