(** When the quantisation of a note in double precision succeeds, and what it does. *)
From Coq Require Import Qround Lia Lqa Psatz.
From Verif Require Import PyBase L_Base M_Note M_Events S_Note L_Note L_Note2 M_Float L_Float L_Float2 P_Rounding M_NoteF L_NoteF.
Open Scope Z_scope.

Lemma U_eq : u = (1 # 9007199254740992)%Q. Proof. reflexivity. Qed.
Lemma fl_int : forall z x, 0 <= z <= 2 ^ 53 -> (x == inject_Z z)%Q -> (fl x == inject_Z z)%Q.
Proof.
  intros z x Z E. assert (X0 : (0 <= x)%Q) by (rewrite E; change 0%Q with (inject_Z 0); rewrite <- Zle_Qle; lia).
  rewrite (fl_m0 _ _ X0 E). apply fl_Z; auto.
Qed.

Section Success.
Variables (n : note) (sps : Z) (amount : Q).
Notation s := (n_start n). Notation e := (n_end n). Notation K := (inject_Z sps).
Hypothesis Hs : (0 <= s)%Q.
Hypothesis Hse : (s < e)%Q.
Hypothesis He : (e <= inject_Z (2 ^ 40))%Q.
Hypothesis Hsps : 0 < sps.
Hypothesis Ha : (0 < amount)%Q.
Hypothesis Ha1 : (amount <= 1)%Q.
Hypothesis Hbig : (K * (e * K + 1) <= inject_Z (2 ^ 50))%Q.
Hypothesis Hlen : (e * K + 1 <= inject_Z (2 ^ 49) * ((e - s) * K))%Q.
Let X := place_f s sps amount.
Let Y := place_f e sps amount.
Let fs := Qfloor X.
Let ce := Qceiling Y.
Let w := (1 / K)%Q.

Local Lemma K1 : (1 <= K)%Q. Proof. apply Ksps; auto. Qed.
Local Lemma wK : (w * K == 1)%Q. Proof. pose proof K1. unfold w. field. lra. Qed.
Local Lemma w0 : (0 < w /\ w <= 1)%Q.
Proof. pose proof K1. unfold w. split; [apply Qlt_shift_div_l; lra|apply Qle_shift_div_r; lra]. Qed.
Local Lemma prods : (0 <= s * K /\ s * K < e * K /\ (e - s) * K == e * K - s * K /\ e <= e * K)%Q.
Proof.
  pose proof K1. split; [apply Qmult_le_0_compat; lra|]. split; [apply Qmul_lt; lra|]. split; [ring|].
  rewrite <- (Qmult_1_r e) at 1. rewrite !(Qmult_comm e). apply Qmul_le; lra.
Qed.
Local Lemma xb : (X <= s * K + (1 - amount) + (s * K + 1) * (8 * u))%Q /\ (s * K + (1 - amount) - (s * K + 1) * (8 * u) <= X)%Q /\ (0 <= X)%Q.
Proof.
  destruct prods as [P0 _]. pose proof (place_near sps amount Hsps Ha1 s Hs) as N. destruct (near2_abs _ _ N) as [A B]. pose proof (proj1 N) as X0. fold X in A, B, X0.
  clearbody X. set (p := (s * K)%Q) in *. clearbody p. rewrite U_eq in *. split; [lra|]. split; lra.
Qed.
Local Lemma yb : (Y <= e * K + (1 - amount) + (e * K + 1) * (8 * u))%Q /\ (e * K + (1 - amount) - (e * K + 1) * (8 * u) <= Y)%Q /\ (0 <= Y)%Q.
Proof.
  destruct prods as [P0 [P1 _]]. pose proof (place_near sps amount Hsps Ha1 e ltac:(lra)) as N. destruct (near2_abs _ _ N) as [A B]. pose proof (proj1 N) as X0. fold Y in A, B, X0.
  clearbody Y. set (p := (s * K)%Q) in *. clearbody p. set (q := (e * K)%Q) in *. clearbody q. rewrite U_eq in *. split; [lra|]. split; lra.
Qed.
Local Lemma XY : (X < Y)%Q.
Proof.
  destruct prods as [P0 [P1 [P2 _]]]. pose proof (place_near sps amount Hsps Ha1 s Hs) as N. destruct (near2_abs _ _ N) as [A _].
  pose proof (place_near sps amount Hsps Ha1 e ltac:(lra)) as N'. destruct (near2_abs _ _ N') as [_ B]. fold X in A. fold Y in B. clearbody X Y.
  pose proof Hlen as HL. rewrite P2 in HL. change (inject_Z (2 ^ 49)) with 562949953421312%Q in HL. set (p := (s * K)%Q) in *. clearbody p. set (q := (e * K)%Q) in *. clearbody q. rewrite U_eq in *. lra.
Qed.
Lemma f_fs_ce : 0 <= fs /\ fs < ce.
Proof.
  pose proof XY as L. destruct xb as [_ [_ X0]]. split.
  - unfold fs. change 0 with (Qfloor (inject_Z 0)). apply Qfloor_resp_le; auto.
  - pose proof (Qfloor_le X) as F. pose proof (Qle_ceiling Y) as C. fold fs in F. fold ce in C. apply inject_Z_lt. lra.
Qed.
Local Lemma fsb : (inject_Z fs <= s * K + (1 - amount) + (s * K + 1) * (8 * u))%Q /\ (s * K + (1 - amount) - (s * K + 1) * (8 * u) - 1 <= inject_Z fs)%Q.
Proof.
  destruct xb as [A [B _]]. pose proof (Qfloor_le X) as F. pose proof (Qlt_floor X) as G. fold fs in F, G. rewrite inject_Z_plus in G. change (inject_Z 1) with 1%Q in G.
  set (z := inject_Z fs) in *. clearbody z. clearbody X. set (p := (s * K)%Q) in *. clearbody p. split; lra.
Qed.
Local Lemma ceb : (inject_Z ce <= e * K + (1 - amount) + (e * K + 1) * (8 * u) + 1)%Q /\ (e * K + (1 - amount) - (e * K + 1) * (8 * u) <= inject_Z ce)%Q.
Proof.
  destruct yb as [A [B _]]. pose proof (Qle_ceiling Y) as F. pose proof (Qceiling_lt Y) as G. fold ce in F, G. unfold Z.sub in G. rewrite inject_Z_plus in G. change (inject_Z (- (1))) with (-1)%Q in G.
  set (z := inject_Z ce) in *. clearbody z. clearbody Y. set (p := (e * K)%Q) in *. clearbody p. split; lra.
Qed.
Local Lemma ce_small : ce <= 2 ^ 53.
Proof.
  destruct ceb as [A _]. destruct prods as [P0 [P1 _]]. pose proof K1 as K1. pose proof Hbig as HB.
  assert (EB : (e * K + 1 <= inject_Z (2 ^ 50))%Q).
  { apply Qle_trans with (K * (e * K + 1))%Q; auto. assert (0 <= (K - 1) * (e * K + 1))%Q by (apply Qmult_le_0_compat; lra). set (p := (e * K)%Q) in *. lra. }
  rewrite Zle_Qle. change (inject_Z (2 ^ 50)) with 1125899906842624%Q in EB. change (inject_Z (2 ^ 53)) with 9007199254740992%Q. set (p := (s * K)%Q) in *. clearbody p. set (q := (e * K)%Q) in *. clearbody q. rewrite U_eq in *. lra.
Qed.
Local Lemma divK : forall a b, (a <= b * K)%Q -> (a / K <= b)%Q.
Proof. intros a b H. pose proof K1. apply Qle_shift_div_r; [lra|exact H]. Qed.
Local Lemma divK' : forall a b, (b * K <= a)%Q -> (b <= a / K)%Q.
Proof. intros a b H. pose proof K1. apply Qle_shift_div_l; [lra|exact H]. Qed.
(** Times of the two steps. *)
Local Lemma fs_time : (inject_Z fs / K <= s + w + (s + w) * (8 * u))%Q /\ (s - w - (s + w) * (8 * u) <= inject_Z fs / K)%Q.
Proof.
  destruct fsb as [A B]. pose proof wK as W. split; [apply divK|apply divK'].
  - assert (E : ((s + w + (s + w) * (8 * u)) * K == s * K + w * K + (s * K + w * K) * (8 * u))%Q) by ring. rewrite E, W. set (p := (s * K)%Q) in *. clearbody p. lra.
  - assert (E : ((s - w - (s + w) * (8 * u)) * K == s * K - w * K - (s * K + w * K) * (8 * u))%Q) by ring. rewrite E, W. set (p := (s * K)%Q) in *. clearbody p. lra.
Qed.
Local Lemma ce_time : (inject_Z ce / K <= e + 2 * w + (e + w) * (8 * u))%Q /\ (e - (e + w) * (8 * u) <= inject_Z ce / K)%Q.
Proof.
  destruct ceb as [A B]. pose proof wK as W. split; [apply divK|apply divK'].
  - assert (E : ((e + 2 * w + (e + w) * (8 * u)) * K == e * K + 2 * (w * K) + (e * K + w * K) * (8 * u))%Q) by ring. rewrite E, W. set (p := (e * K)%Q) in *. clearbody p. lra.
  - assert (E : ((e - (e + w) * (8 * u)) * K == e * K - (e * K + w * K) * (8 * u))%Q) by ring. rewrite E, W. set (p := (e * K)%Q) in *. clearbody p. lra.
Qed.

Local Lemma steps_f : exists n2,
  (if n_is_quantized n
   then run (n_set_qs n (Qmaxb 0 (inject_Z fs))) (fun n1 => n_set_qe n1 (fl (n_qs n1 + fl (fl (inject_Z ce - inject_Z fs) / K))))
   else run (n_set_qs n (fl (inject_Z fs + inject_Z (Qfloor (fl (Qmaxb 0 (- s) * K)))))) (fun n1 => n_set_qe n1 (fl (inject_Z ce + inject_Z (Qfloor (fl (Qmaxb 0 (- e) * K))))))) = (Ok tt, n2) /\
  n_start n2 = s /\ n_end n2 = e /\ (n_qs n2 == inject_Z fs)%Q /\
  (if n_is_quantized n then n_qe n2 == fl (inject_Z fs + fl (inject_Z (ce - fs) / K)) else n_qe n2 == inject_Z ce)%Q /\
  (n_qs n2 < n_qe n2)%Q.
Proof.
  destruct f_fs_ce as [F0 FC]. pose proof ce_small as CS. pose proof K1 as KP. destruct w0 as [WP W1]. destruct prods as [P0 [P1 [P2 P3]]].
  assert (Zf : (0 <= inject_Z fs)%Q) by (change 0%Q with (inject_Z 0); apply inject_Z_le; auto).
  assert (Zc : (inject_Z fs < inject_Z ce)%Q) by (apply inject_Z_lt; auto).
  assert (Zd : (inject_Z ce - inject_Z fs == inject_Z (ce - fs))%Q) by (unfold Z.sub; rewrite inject_Z_plus, inject_Z_opp; reflexivity).
  destruct (n_is_quantized n).
    - destruct (Qmaxb_spec 0 (inject_Z fs)) as [[M ->]|[M _]]; [|lra].
      rewrite set_qs_eq by auto. cbn [run].
      assert (D1 : (fl (inject_Z ce - inject_Z fs) == inject_Z (ce - fs))%Q) by (apply fl_int; [lia|exact Zd]).
      assert (D2 : (1 <= inject_Z (ce - fs))%Q) by (change 1%Q with (inject_Z 1); rewrite <- Zle_Qle; lia).
      assert (D3 : (fl (inject_Z ce - inject_Z fs) / K == inject_Z (ce - fs) / K)%Q) by (rewrite D1; reflexivity).
      assert (D4 : (w <= inject_Z (ce - fs) / K)%Q) by (unfold w, Qdiv; apply Qmul_le; [apply Qlt_le_weak, Qinv_lt_0_compat; lra|auto]).
      assert (D5 : fl (fl (inject_Z ce - inject_Z fs) / K) = fl (inject_Z (ce - fs) / K)) by (apply fl_m0; [rewrite D3; lra|exact D3]). rewrite D5.
      destruct (fl_err (inject_Z (ce - fs) / K)) as [V1 _]; [lra|]. set (v := fl (inject_Z (ce - fs) / K)) in *. clearbody v.
      assert (V2 : (w * (1 - u) <= v)%Q) by (apply Qle_trans with (inject_Z (ce - fs) / K * (1 - u))%Q; auto; apply Qmul_le; [discriminate|auto]).
      assert (WU : (inject_Z fs * u < w * (1 - u) * (1 - u))%Q).
      { destruct fsb as [FB _]. pose proof wK as W. apply (Qmul_lt_inv _ _ K); [lra|].
        assert (E1 : (w * (1 - u) * (1 - u) * K == (w * K) * ((1 - u) * (1 - u)))%Q) by ring. rewrite E1, W.
        apply Qle_lt_trans with (K * ((e * K + 1) * (2 * u)))%Q.
        - assert (E2 : (inject_Z fs * u * K == K * (inject_Z fs * u))%Q) by ring. rewrite E2. rewrite !(Qmult_comm K). apply Qmul_le; [lra|].
          rewrite U_eq in *. set (p := (s * K)%Q) in *. clearbody p. set (q := (e * K)%Q) in *. clearbody q. lra.
        - pose proof Hbig as HB. change (inject_Z (2 ^ 50)) with 1125899906842624%Q in HB. assert (E3 : (K * ((e * K + 1) * (2 * u)) == K * (e * K + 1) * (2 * u))%Q) by ring. rewrite E3.
          set (g := (K * (e * K + 1))%Q) in *. clearbody g. rewrite U_eq. lra. }
      set (a := inject_Z fs) in *. assert (Y0 : (0 <= a + v)%Q) by (pose proof (Qmult_le_0_compat w (1 - u) ltac:(lra) ltac:(discriminate)); lra).
      destruct (fl_err _ Y0) as [G _]. pose proof (fl_nonneg _ Y0) as G0.
      assert (GT : (a < fl (a + v))%Q).
      { apply Qlt_le_trans with ((a + v) * (1 - u))%Q; auto. assert (E : ((a + v) * (1 - u) == a - a * u + v * (1 - u))%Q) by ring. rewrite E.
        assert (w * (1 - u) * (1 - u) <= v * (1 - u))%Q by (apply Qmul_le; [discriminate|auto]). lra. }
      rewrite set_qe_eq by (cbn [with_qs n_qs]; auto).
      eexists; split; [reflexivity|]. cbn [with_qs with_qe n_start n_end n_qs n_qe].
      split; [reflexivity|]. split; [reflexivity|]. split; [reflexivity|]. split; [reflexivity|]. exact GT.
    - assert (M0 : forall t, (0 <= t)%Q -> (inject_Z (Qfloor (fl (Qmaxb 0 (- t) * K))) == 0)%Q).
      { intros t Ht. assert (M : (Qmaxb 0 (- t) == 0)%Q) by (destruct (Qmaxb_max 0 (- t)) as [M1 [M2 [M3|M3]]]; lra).
        rewrite (fl_0 (Qmaxb 0 (- t) * K)); [reflexivity|]. rewrite M. ring. }
      pose proof (M0 s Hs) as M1. assert (M3 : (inject_Z (Qfloor (fl (Qmaxb 0 (- e) * K))) == 0)%Q) by (apply M0; lra).
      set (z1 := inject_Z (Qfloor (fl (Qmaxb 0 (- s) * K)))) in *. set (z2 := inject_Z (Qfloor (fl (Qmaxb 0 (- e) * K)))) in *. clearbody z1 z2.
      assert (A1 : (fl (inject_Z fs + z1) == inject_Z fs)%Q) by (apply fl_int; [lia|rewrite M1; ring]).
      assert (A2 : (fl (inject_Z ce + z2) == inject_Z ce)%Q) by (apply fl_int; [lia|rewrite M3; ring]).
      set (b1 := fl (inject_Z fs + z1)) in *. set (b2 := fl (inject_Z ce + z2)) in *. clearbody b1 b2.
      rewrite set_qs_eq by lra. cbn [run]. rewrite set_qe_eq by lra.
      eexists; split; [reflexivity|]. cbn [with_qs with_qe n_start n_end n_qs n_qe].
      split; [reflexivity|]. split; [reflexivity|]. split; [lra|]. split; lra. 
Qed.
Local Lemma EMl : (fl (e - milli) < e)%Q /\ ((fl (e - milli) <= 0)%Q -> (s < 1 # 999)%Q) /\ (s - (1 # 999) - e * u <= fl (e - milli) \/ fl (e - milli) <= 0)%Q.
Proof.
  pose proof He as HE. change (inject_Z (2 ^ 40)) with 1099511627776%Q in HE. destruct milli_b as [ML MU].
  destruct (Qlt_le_dec e milli) as [LT | GE].
  - pose proof (fl_le0 (e - milli) ltac:(lra)) as L0. remember (fl (e - milli)) as em. clear Heqem. split; [lra|]. split; [intros _; lra|right; auto].
  - destruct (fl_err (e - milli)) as [G1 G2]; [lra|]. pose proof (fl_gt0 (e - milli)) as GP. remember (fl (e - milli)) as em. clear Heqem. remember milli as ml. clear Heqml.
    assert (EU : (e * u <= (1 # 8192))%Q) by (rewrite U_eq; lra).
    assert (MU0 : (0 <= ml * u)%Q) by (apply Qmult_le_0_compat; [lra|discriminate]). rewrite U_eq in *. split; [lra|]. split.
    + intros L0. destruct (Qlt_le_dec 0 (e - ml)) as [Q1 | Q1]; [|lra]. specialize (GP Q1). lra.
    + left. lra.
Qed.
Definition slack_f : Q := ((e + 2) * (64 * u))%Q.
Local Lemma success0 : exists n', n_quantize_in_place_f n sps amount None = (Ok tt, n') /\
  (n_qs n' == inject_Z fs)%Q /\
  (if n_is_quantized n then n_qe n' == fl (inject_Z fs + fl (inject_Z (ce - fs) / K)) else n_qe n' == inject_Z ce)%Q /\
  (Qabsb (n_start n' - s) <= w + (1 # 200) + slack_f)%Q /\
  (Qabsb (n_end n' - e) <= 2 * w + (1 # 200) + slack_f)%Q.
Proof.
  destruct f_fs_ce as [F0 FC]. pose proof ce_small as CS. pose proof K1 as KP. destruct w0 as [WP W1]. destruct prods as [P0 [P1 [P2 P3]]].
  unfold n_quantize_in_place_f. rewrite (step_floor sps amount Hsps Ha Ha1 s Hs), (step_ceil sps amount Hsps Ha Ha1 e) by lra. fold X. fold Y. fold fs. fold ce.
  replace (if (sps =? 1) && (fs =? ce) then ce + 1 else ce) with ce
    by (destruct (Z.eqb_spec fs ce); [lia|rewrite andb_false_r; reflexivity]).
  cbv zeta.
  match goal with |- context [run (if n_is_quantized n then ?A else ?B) ?K] => set (r := if n_is_quantized n then A else B); set (k := K) end.
  assert (Zf : (0 <= inject_Z fs)%Q) by (change 0%Q with (inject_Z 0); apply inject_Z_le; auto).
  assert (Zc : (inject_Z fs < inject_Z ce)%Q) by (apply inject_Z_lt; auto).
  assert (Zd : (inject_Z ce - inject_Z fs == inject_Z (ce - fs))%Q) by (unfold Z.sub; rewrite inject_Z_plus, inject_Z_opp; reflexivity).
  pose proof steps_f as R. fold r in R.
  destruct R as [n2 [-> [R1 [R2 [R3 [R4 R5]]]]]].
  cbn [run]. subst k. cbv beta.
  rewrite (Qltb_false (n_qs n2)), (Qltb_false (n_qe n2)), (Qle_bool_ff (n_qe n2)) by lra.
  destruct fs_time as [S1 S2], ce_time as [E1 E2].
  destruct (seconds_near (inject_Z fs) sps Hsps Zf) as [AS AS0].
  destruct (seconds_near (inject_Z ce) sps Hsps ltac:(lra)) as [AE AE0].
  set (rs := seconds_f (inject_Z fs) sps) in *. set (re := seconds_f (inject_Z ce) sps) in *.
  clearbody rs re.
  set (qs_ := (inject_Z fs / K)%Q) in *. set (qe_ := (inject_Z ce / K)%Q) in *. clearbody qs_ qe_.
  rewrite R1, R2.
  pose proof He as HE. change (inject_Z (2 ^ 40)) with 1099511627776%Q in HE.
  pose proof EMl as EM.
  destruct EM as [EM1 [EM2 EM3]]. set (em := fl (e - milli)) in *. clearbody em.
  set (cap := fl (999999 - milli)) in *. clearbody cap.
  set (ns := Qmaxb 0 (Qminb rs em)) in *. set (ne := Qmaxb 0 (Qminb re cap)) in *.
  destruct (Qabsb_abs (rs - qs_)) as [A1 [A2 _]]. destruct (Qabsb_abs (re - qe_)) as [A3 [A4 _]].
  rewrite U_eq in *.
  assert (N : (0 <= ns)%Q /\ (ns < e)%Q /\ (s - w - (1 # 200) - (e + 2) * (32 * (1 # 9007199254740992)) <= ns)%Q /\ (ns <= s + w + (1 # 200) + (e + 2) * (32 * (1 # 9007199254740992)))%Q).
  { subst ns. destruct (Qminb_spec rs em) as [[? ->]|[? ->]];
    match goal with |- context [Qmaxb 0 ?y] => destruct (Qmaxb_spec 0 y) as [[? ->]|[? ->]] end; split; [lra| |lra| |lra| |lra| ]; (split; [lra|]); split; try lra. }
  destruct N as [N1 [N2 [N3 N4]]].
  assert (M : (ne <= e + 2 * w + (1 # 200) + (e + 2) * (32 * (1 # 9007199254740992)))%Q).
  { subst ne. destruct (Qminb_spec re cap) as [[? ->]|[? ->]];
    match goal with |- context [Qmaxb 0 ?y] => destruct (Qmaxb_spec 0 y) as [[? ->]|[? ->]] end; lra. }
  clearbody ns ne. unfold slack_f. rewrite U_eq.
  qcase (Qltb ne e).
  - destruct (fl_err (e - s)) as [D1 D2]; [lra|]. pose proof (fl_gt0 (e - s) ltac:(lra)) as D0. set (d := fl (e - s)) in *. clearbody d.
    destruct (fl_err (ns + d)) as [G1 G2]; [lra|]. set (g := fl (ns + d)) in *. 
    assert (LEN : (e <= 562949953421312 * (e - s))%Q).
    { pose proof Hlen as HL. change (inject_Z (2 ^ 49)) with 562949953421312%Q in HL. apply (Qmul_le_inv _ _ K); [lra|]. assert (X1 : (562949953421312 * (e - s) * K == 562949953421312 * ((e - s) * K))%Q) by ring. rewrite X1. lra. }
    rewrite U_eq in *.
    assert (NG : (ns < g)%Q) by (clearbody g; lra). assert (G0 : (0 <= g)%Q) by (clearbody g; lra).
    rewrite set_start_eq by (rewrite ?R2; auto). cbn [run]. change (n_start (with_start n2 ns)) with ns. fold g.
    rewrite set_end_eq by (cbn [with_start n_start]; assumption). clearbody g.
    eexists; split; [reflexivity|]. cbn [with_start with_end n_start n_end n_qs n_qe].
    split; [auto|]. split; [auto|].
    split; [destruct (Qabsb_abs (ns - s)) as [_ [_ [Z|Z]]]; rewrite Z; lra|].
    destruct (Qabsb_abs (g - e)) as [_ [_ [Z|Z]]]; rewrite Z; lra.
  - rewrite set_end_eq by (rewrite ?R1; lra). cbn [run].
    rewrite set_start_eq by (cbn [with_end n_end]; lra).
    eexists; split; [reflexivity|]. cbn [with_start with_end n_start n_end n_qs n_qe].
    split; [auto|]. split; [auto|].
    split; [destruct (Qabsb_abs (ns - s)) as [_ [_ [Z|Z]]]; rewrite Z; lra|].
    destruct (Qabsb_abs (ne - e)) as [_ [_ [Z|Z]]]; rewrite Z; lra.
Qed.
Lemma quantize_f_success : exists n', n_quantize_in_place_f n sps amount None = (Ok tt, n') /\
  (n_qs n' == inject_Z fs)%Q /\
  (if n_is_quantized n then n_qe n' == fl (inject_Z fs + fl (inject_Z (ce - fs) / K)) else n_qe n' == inject_Z ce)%Q /\
  (Qabsb (n_start n' - s) <= w + (1 # 200) + slack_f)%Q /\
  (Qabsb (n_end n' - e) <= 2 * w + (1 # 200) + slack_f)%Q /\
  same_identity n' n.
Proof.
  destruct success0 as [n' [H1 [H2 [H3 [H4 H5]]]]]. exists n'. pose proof (proj1 (quantize_f_keeps n sps amount None)) as ID. rewrite H1 in ID.
  split; [exact H1|]. split; [exact H2|]. split; [exact H3|]. split; [exact H4|]. split; [exact H5|exact ID].
Qed.
End Success.
