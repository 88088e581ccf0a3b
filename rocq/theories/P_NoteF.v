(** Property C205: quantising notes in double precision.  [quantize_step_f t sps amount b] is
    MidiNote.quantize_to_nearest_step (floor for [b] true); [n_quantize_in_place_f] and [n_quantize_f] are
    quantize_in_place and quantize; [quantize_step] is the step in exact arithmetic. *)
From Coq Require Import Qround Lia Lqa Psatz.
From Verif Require Import PyBase L_Base M_Note M_Events S_Note L_Note L_Note2 M_Float L_Float L_Float2 S_Rounding P_Rounding M_NoteF L_NoteF L_NoteF2.
Open Scope Z_scope.

(** C205: errors and sign. *)
Theorem C205_step_errors : forall t sps amount b,
  (quantize_step_f t sps amount b = Err ValueError <-> sps <= 0 \/ (amount <= 0)%Q) /\
  (0 < sps -> (0 < amount)%Q -> exists k, quantize_step_f t sps amount b = Ok k /\ 0 <= k).
Proof.
  intros t sps amount b. unfold quantize_step_f. destruct (Z.leb_spec sps 0); [|qcase (Qle_bool amount 0)].
  - split; [split; auto|lia].
  - split; [split; auto|intros; lra].
  - split.
    + split; [discriminate|]. intros [?|?]; [lia|lra].
    + intros. eexists; split; [reflexivity|]. destruct b; lia.
Qed.
Print Assumptions C205_step_errors.
(** C205: monotone. *)
Theorem C205_step_monotone : forall t1 t2 sps amount b k1 k2, (t1 <= t2)%Q ->
  quantize_step_f t1 sps amount b = Ok k1 -> quantize_step_f t2 sps amount b = Ok k2 -> k1 <= k2.
Proof.
  intros t1 t2 sps amount b k1 k2 T H1 H2. unfold quantize_step_f in *. destruct (Z.leb_spec sps 0) as [|SP]; [discriminate|].
  destruct (Qle_bool amount 0); [discriminate|]. apply Ok_inj in H1, H2. pose proof (place_mono sps amount SP t1 t2 T) as M.
  subst k1 k2. destruct b; apply Z.max_le_compat_l; [apply Qfloor_resp_le|apply Qceiling_resp_le]; exact M.
Qed.
Print Assumptions C205_step_monotone.
(** C205: the step is within one of t*sps + (1-amount), up to the rounding of x. *)
Theorem C205_step_near : forall t sps amount b k, (0 <= t)%Q -> (amount <= 1)%Q -> quantize_step_f t sps amount b = Ok k ->
  let x := (t * inject_Z sps + (1 - amount))%Q in let d := (x / inject_Z (2 ^ 50))%Q in
  if b then (inject_Z k <= x + d)%Q /\ (x - d < inject_Z k + 1)%Q
  else (x - d <= inject_Z k)%Q /\ (inject_Z k < x + d + 1)%Q.
Proof.
  intros t sps amount b k T A1 H x d. assert (SP : 0 < sps) by (unfold quantize_step_f in H; destruct (Z.leb_spec sps 0); [discriminate|auto]).
  assert (A0 : (0 < amount)%Q) by (unfold quantize_step_f in H; rewrite (proj2 (Z.leb_gt sps 0)) in H by auto; qcase (Qle_bool amount 0); [discriminate|auto]).
  destruct (near2_abs _ _ (place_near sps amount SP A1 t T)) as [N1 N2]. fold x in N1, N2.
  assert (D : (d == x * (8 * u))%Q) by (unfold d, Qdiv; assert (Y : (/ inject_Z (2 ^ 50) == 8 * u)%Q) by reflexivity; rewrite Y; reflexivity). clearbody d.
  destruct b.
  - rewrite (step_floor sps amount SP A0 A1 t T) in H. apply Ok_inj in H. subst k. set (p := place_f t sps amount) in *. clearbody p.
    pose proof (Qfloor_le p) as F. pose proof (Qlt_floor p) as G. rewrite inject_Z_plus in G. change (inject_Z 1) with 1%Q in G. split; lra.
  - rewrite (step_ceil sps amount SP A0 A1 t T) in H. apply Ok_inj in H. subst k. set (p := place_f t sps amount) in *. clearbody p.
    pose proof (Qle_ceiling p) as F. pose proof (Qceiling_lt p) as G. unfold Z.sub in G. rewrite inject_Z_plus in G. change (inject_Z (- (1))) with (-1)%Q in G. split; lra.
Qed.
Print Assumptions C205_step_near.
(** C205: it is the exact step wherever t*sps + (1-amount) is not within that rounding of a whole number. *)
Theorem C205_step_agrees : forall t sps amount b, (0 <= t)%Q -> (amount <= 1)%Q ->
  let x := (t * inject_Z sps + (1 - amount))%Q in
  (forall z, (x / inject_Z (2 ^ 50) < Qabsb (x - inject_Z z))%Q) -> quantize_step_f t sps amount b = quantize_step t sps amount b.
Proof.
  intros t sps amount b T A1 x H. unfold quantize_step_f, quantize_step. destruct (Z.leb_spec sps 0) as [|SP]; [reflexivity|].
  qcase (Qle_bool amount 0); [reflexivity|]. fold x. cbv zeta. destruct (near2_abs _ _ (place_near sps amount SP A1 t T)) as [N1 N2]. fold x in N1, N2.
  set (p := place_f t sps amount) in *. clearbody p.
  assert (D : (x / inject_Z (2 ^ 50) == x * (8 * u))%Q) by (unfold Qdiv; assert (Y : (/ inject_Z (2 ^ 50) == 8 * u)%Q) by reflexivity; rewrite Y; reflexivity).
  assert (H' : forall z, (x * (8 * u) < Qabsb (x - inject_Z z))%Q) by (intros z; rewrite <- D; apply H). clear H D. clearbody x.
  set (q := (x * (8 * u))%Q) in *. clearbody q. f_equal. f_equal. destruct b.
  - pose proof (Qfloor_le x) as F. pose proof (Qlt_floor x) as G. pose proof (H' (Qfloor x)) as X1. pose proof (H' (Qfloor x + 1)) as X2.
    rewrite inject_Z_plus in G, X2. change (inject_Z 1) with 1%Q in *. apply Qfloor_unique.
    + destruct (Qabsb_spec (x - inject_Z (Qfloor x))) as [[P Q] | [P Q]]; rewrite Q in X1; lra.
    + destruct (Qabsb_spec (x - (inject_Z (Qfloor x) + 1))) as [[P Q] | [P Q]]; rewrite Q in X2; lra.
  - pose proof (Qle_ceiling x) as F. pose proof (Qceiling_lt x) as G. pose proof (H' (Qceiling x)) as X1. pose proof (H' (Qceiling x - 1)) as X2.
    unfold Z.sub in G, X2. rewrite inject_Z_plus in G, X2. change (inject_Z (- (1))) with (-1)%Q in *.
    assert (C1 : (p <= inject_Z (Qceiling x))%Q) by (destruct (Qabsb_spec (x - inject_Z (Qceiling x))) as [[P Q] | [P Q]]; rewrite Q in X1; lra).
    assert (C2 : (inject_Z (Qceiling x) - 1 < p)%Q) by (destruct (Qabsb_spec (x - (inject_Z (Qceiling x) + -1))) as [[P Q] | [P Q]]; rewrite Q in X2; lra).
    pose proof (Qle_ceiling p) as F'. pose proof (Qceiling_lt p) as G'. unfold Z.sub in G'. rewrite inject_Z_plus in G'. change (inject_Z (- (1))) with (-1)%Q in *.
    assert (inject_Z (Qceiling p) < inject_Z (Qceiling x + 1))%Q by (rewrite inject_Z_plus; change (inject_Z 1) with 1%Q; lra).
    assert (inject_Z (Qceiling x) < inject_Z (Qceiling p + 1))%Q by (rewrite inject_Z_plus; change (inject_Z 1) with 1%Q; lra).
    rewrite <- Zlt_Qlt in *. lia.
Qed.
Print Assumptions C205_step_agrees.
Lemma fl_bits : forall x, bits53 x -> (fl x == x)%Q.
Proof.
  intros x [n [e [N E]]]. destruct (Z_le_gt_dec 0 n) as [G | G].
  - apply (fl_exact n e); [auto|lia|exact E].
  - assert (X : (- x == inject_Z (- n) * P e)%Q) by (unfold L_Float.P; rewrite E, inject_Z_opp; ring). pose proof (fl_exact (- n) e (- x) ltac:(lia) ltac:(lia) X) as F. rewrite fl_opp in F. lra.
Qed.
(** C205: it is the exact step where no operation has to round. *)
Theorem C205_step_exact : forall t sps amount b, bits53 (t * inject_Z sps) -> bits53 (1 - amount) -> bits53 (t * inject_Z sps + (1 - amount)) ->
  quantize_step_f t sps amount b = quantize_step t sps amount b.
Proof.
  intros t sps amount b B1 B2 B3. unfold quantize_step_f, quantize_step. destruct (sps <=? 0); [reflexivity|]. destruct (Qle_bool amount 0); [reflexivity|]. cbv zeta.
  assert (S1 : (fl (t * inject_Z sps) + fl (1 - amount) == t * inject_Z sps + (1 - amount))%Q) by (rewrite (fl_bits _ B1), (fl_bits _ B2); reflexivity).
  assert (S2 : (place_f t sps amount == t * inject_Z sps + (1 - amount))%Q).
  { unfold place_f. rewrite (fl_bits _ (bits_m _ _ (Qeq_sym _ _ S1) B3)). exact S1. }
  f_equal. f_equal. destruct b; [apply Qfloor_comp|apply Qceiling_comp]; exact S2.
Qed.
Print Assumptions C205_step_exact.
(** One second and a third at three steps per second, amount 0.3: the exact place 4.7 (floor 4). *)
Example C205_case_step : quantize_step_f (fl (4 # 3)) 3 (fl (3 # 10)) true = Ok 4 /\ quantize_step_f (fl (4 # 3)) 3 (fl (3 # 10)) false = Ok 5.
Proof. split; vm_compute; reflexivity. Qed.

(** C205: whenever quantisation succeeds the note is valid, and its steps are ordered. *)
Theorem C205_valid : forall n sps amount ms n', n_quantize_in_place_f n sps amount ms = (Ok tt, n') ->
  (0 <= n_qs n')%Q /\ (n_qs n' < n_qe n')%Q /\ (0 <= n_start n')%Q /\ (n_start n' < n_end n')%Q.
Proof. exact quantize_f_valid. Qed.
Print Assumptions C205_valid.
(** C205: successful or not, it changes times and steps only, and keeps the start before the end. *)
Theorem C205_keeps : forall n sps amount ms, let n' := snd (n_quantize_in_place_f n sps amount ms) in
  same_identity n' n /\ ((n_start n < n_end n)%Q -> (n_start n' < n_end n')%Q).
Proof. exact quantize_f_keeps. Qed.
Print Assumptions C205_keeps.
(** C205: a note that is not vanishingly short is quantised; its steps are the floor and the ceiling of the
    rounded places, its times move by at most one resp. two steps plus half a centisecond and rounding. *)
Theorem C205_succeeds : forall n sps amount, let K := inject_Z sps in
  (0 <= n_start n)%Q -> (n_start n < n_end n)%Q -> (n_end n <= inject_Z (2 ^ 40))%Q -> 0 < sps -> (0 < amount)%Q -> (amount <= 1)%Q ->
  (K * (n_end n * K + 1) <= inject_Z (2 ^ 50))%Q -> (n_end n * K + 1 <= inject_Z (2 ^ 49) * ((n_end n - n_start n) * K))%Q ->
  let r := ((n_end n + 2) / inject_Z (2 ^ 47))%Q in
  exists n' fs ce, n_quantize_in_place_f n sps amount None = (Ok tt, n') /\
    quantize_step_f (n_start n) sps amount true = Ok fs /\ quantize_step_f (n_end n) sps amount false = Ok ce /\ fs < ce /\
    (n_qs n' == inject_Z fs)%Q /\
    (if n_is_quantized n then n_qe n' == fl (inject_Z fs + fl (inject_Z (ce - fs) / K)) else n_qe n' == inject_Z ce)%Q /\
    (Qabsb (n_start n' - n_start n) <= 1 / K + (1 # 200) + r)%Q /\
    (Qabsb (n_end n' - n_end n) <= 2 * (1 / K) + (1 # 200) + r)%Q /\
    same_identity n' n.
Proof.
  intros n sps amount K Hs Hse He Hsps Ha Ha1 Hbig Hlen r.
  destruct (quantize_f_success n sps amount Hs Hse He Hsps Ha Ha1 Hbig Hlen) as [n' [H1 [H2 [H3 [H4 [H5 H6]]]]]].
  exists n', (Qfloor (place_f (n_start n) sps amount)), (Qceiling (place_f (n_end n) sps amount)).
  assert (R : (r == slack_f n)%Q) by (unfold r, slack_f, Qdiv; assert (Y : (/ inject_Z (2 ^ 47) == 64 * u)%Q) by reflexivity; rewrite Y; reflexivity).
  split; [exact H1|]. split; [apply step_floor; auto|]. split; [apply step_ceil; auto; lra|]. split; [apply (f_fs_ce n sps amount); auto|].
  split; [exact H2|]. split; [exact H3|]. rewrite R. split; [exact H4|]. split; [exact H5|exact H6].
Qed.
Print Assumptions C205_succeeds.
(** C205: in particular any note of at least a microsecond in the first million seconds, at up to ten
    thousand steps per second. *)
Theorem C205_practical : forall n sps amount, 0 < sps <= 10000 -> (0 < amount)%Q -> (amount <= 1)%Q ->
  (0 <= n_start n)%Q -> (n_start n + (1 # 1000000) <= n_end n)%Q -> (n_end n <= 1000000)%Q ->
  exists n', n_quantize_in_place_f n sps amount None = (Ok tt, n') /\
    (Qabsb (n_start n' - n_start n) <= 1 / inject_Z sps + (1 # 199))%Q /\
    (Qabsb (n_end n' - n_end n) <= 2 / inject_Z sps + (1 # 199))%Q.
Proof.
  intros n sps amount [S1 S2] A0 A1 H0 H1 H2.
  assert (K1 : (1 <= inject_Z sps)%Q) by (apply Ksps; auto). assert (K2 : (inject_Z sps <= 10000)%Q) by (change 10000%Q with (inject_Z 10000); rewrite <- Zle_Qle; auto).
  assert (EK0 : (0 <= n_end n * inject_Z sps)%Q) by (apply Qmult_le_0_compat; lra).
  assert (EK : (n_end n * inject_Z sps <= 1000000 * inject_Z sps)%Q) by (apply Qmul_le; lra).
  destruct (C205_succeeds n sps amount H0 ltac:(lra) ltac:(apply Qle_trans with 1000000%Q; [auto|vm_compute; discriminate]) S1 A0 A1) as [n' [fs [ce [X1 [_ [_ [_ [_ [_ [X2 [X3 _]]]]]]]]]]].
  - apply Qle_trans with (10000 * (n_end n * inject_Z sps + 1))%Q; [apply Qmul_le; lra|]. change (inject_Z (2 ^ 50)) with 1125899906842624%Q. lra.
  - change (inject_Z (2 ^ 49)) with 562949953421312%Q.
    assert (L : ((1 # 1000000) * inject_Z sps <= (n_end n - n_start n) * inject_Z sps)%Q) by (apply Qmul_le; lra). lra.
  - exists n'. split; [exact X1|]. assert (R : ((n_end n + 2) / inject_Z (2 ^ 47) <= (1 # 199) - (1 # 200))%Q) by (apply Qle_shift_div_r; [reflexivity|]; change (inject_Z (2 ^ 47)) with 140737488355328%Q; lra).
    assert (T : (2 / inject_Z sps == 2 * (1 / inject_Z sps))%Q) by (field; lra). rewrite T. split; lra.
Qed.
Print Assumptions C205_practical.
(** C205: a valid note of one unit in the last place, which exact arithmetic would quantise, is refused at the
    default rate: both times fall on the same step. *)
Definition tiny : note := mk0 60 (1 # 8) ((1 # 8) + (1 # 2 ^ 55)).
Example C205_case_tiny : fst (n_quantize_in_place_f tiny 4 (1 # 2) None) = Err ValueError /\ fst (n_quantize_in_place tiny 4 (1 # 2) None) = Ok tt /\ bits53 (n_end tiny).
Proof.
  split; [vm_compute; reflexivity|]. split; [vm_compute; reflexivity|]. exists (2 ^ 52 + 1), (-55). split; [vm_compute; discriminate|]. vm_compute. reflexivity.
Qed.
(** 1.3 to 1.9 seconds at four steps per second: steps 5 and 9, 1.25 to 2.25 seconds. *)
Example C205_case : exists n', n_quantize_in_place_f (mk0 60 (fl (13#10)) (fl (19#10))) 4 (1#2) None = (Ok tt, n') /\
  (n_qs n' == 5)%Q /\ (n_qe n' == 9)%Q /\ (n_start n' == 125#100)%Q /\ (n_end n' == 225#100)%Q.
Proof. eexists; split; [vm_compute; reflexivity|]. split; [reflexivity|]. split; [reflexivity|]. split; reflexivity. Qed.
(** Steps of a third of a second, a note already quantised. *)
Example C205_case_again : exists n1 n2, n_quantize_in_place_f (mk0 60 (fl (13#10)) (fl (19#10))) 3 (1#2) None = (Ok tt, n1) /\
  n_is_quantized n1 = true /\ n_quantize_in_place_f n1 3 (1#2) None = (Ok tt, n2) /\ (n_qs n2 == 4)%Q /\ (n_qe n2 == fl (4 + fl (4 / 3)))%Q.
Proof. do 2 eexists; split; [vm_compute; reflexivity|]. split; [vm_compute; reflexivity|]. split; [vm_compute; reflexivity|]. split; vm_compute; reflexivity. Qed.
(** C205: quantize returns a note quantised that way, for a note that can be copied; the original is not part of
    the result. *)
Theorem C205_copy : forall n sps amount ms, (n_start n < n_end n)%Q -> n_make_copy n = Ok n ->
  (forall c, n_quantize_f n sps amount ms = Ok c <-> n_quantize_in_place_f n sps amount ms = (Ok tt, c)) /\
  (forall x, n_quantize_f n sps amount ms = Err x <-> fst (n_quantize_in_place_f n sps amount ms) = Err x).
Proof.
  intros n sps amount ms V C. unfold n_quantize_f. rewrite C. cbn [bind]. destruct (n_quantize_in_place_f n sps amount ms) as [[[] | x] c']; cbn [fst]; split.
  - intros c. split; intros H; [apply Ok_inj in H; subst; reflexivity|injection H as H; subst; reflexivity].
  - intros y. split; discriminate.
  - intros c. split; discriminate.
  - intros y. split; intros H; injection H as H; subst; reflexivity.
Qed.
Print Assumptions C205_copy.
Example C205_case_copy : n_make_copy tiny = Ok tiny /\ n_quantize_f tiny 4 (1 # 2) None = Err ValueError /\ exists c, n_quantize_f (mk0 60 (fl (13#10)) (fl (19#10))) 4 (1#2) None = Ok c.
Proof. split; [reflexivity|]. split; [vm_compute; reflexivity|]. eexists. vm_compute. reflexivity. Qed.
