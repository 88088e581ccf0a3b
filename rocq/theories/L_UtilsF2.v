(** Lemmas for the stand-alone quantisers in double precision, continued. *)
From Coq Require Import QArith Qabs Qround Lia Lqa Psatz.
From Verif Require Import PyBase L_Base M_Note L_Note L_Note2 M_Events M_Chord S_Graph L_Chord L_Graph5 L_Transforms M_Float S_Rounding S_ShiftF L_Float L_Float2 P_Rounding M_NoteF L_NoteF P_NoteF L_NoteF2 L_ShiftF L_Snap M_Utils S_Utils L_Utils L_Utils2 M_UtilsF L_UtilsF.
Open Scope Z_scope.

Lemma fl_dyadic : forall n e x, Z.abs n <= 2 ^ 53 -> (x == inject_Z n * 2 ^ e)%Q -> (fl x == x)%Q.
Proof. intros n e x N X. apply fl_bits. exists n, e. auto. Qed.
Lemma ceil_is : forall x k, (inject_Z k - 1 < x)%Q -> (x <= inject_Z k)%Q -> Qceiling x = k.
Proof. intros x k A B. apply (up_unique x x); [reflexivity|apply ceil_up|]. split; [auto|lra]. Qed.

(* occupancy *)
Lemma occ_near : forall r fps, (0 <= r)%Q -> (0 < fps)%Q -> near 2 (fl (fl r / fps)) (r / fps).
Proof.
  intros r fps R F. apply near_fl'. unfold Qdiv. apply near_mul; [apply Qlt_le_weak, Qinv_lt_0_compat; auto|]. apply near_fl; auto.
Qed.
Lemma occ_le1 : forall r fps, (r <= 1)%Q -> (1 <= fps)%Q -> (fl (fl r / fps) <= 1)%Q.
Proof.
  intros r fps R F. apply (fl_le_Z _ 1); [lia|]. change (inject_Z 1) with 1%Q. assert (X : (fl r <= 1)%Q) by (apply (fl_le_Z _ 1); [lia|exact R]).
  apply Qle_shift_div_r; lra.
Qed.
Lemma frames_f_occupied : forall s e fps occ a b, (1 <= fps)%Q -> (1 # 2 ^ 50 <= occ)%Q -> (occ <= 1)%Q -> frames_from_times_f s e fps occ = Ok (a, b) ->
  exists f c d, int_part (fl (s * fps)) f /\ rounded_up (fl (e * fps)) c /\ f < c /\ (a = f \/ a = f + 1) /\ (d = c - 1 \/ d = c - 2) /\ b = Z.max a d /\
    (((occ + (1 # 2 ^ 48)) * fps <= inject_Z f + 1 - fl (s * fps))%Q -> a = f) /\
    ((inject_Z f + 1 - fl (s * fps) <= (occ - (1 # 2 ^ 48)) * fps)%Q -> a = f + 1) /\
    ((inject_Z c - fl (e * fps) <= (1 - occ - (1 # 2 ^ 48)) * fps)%Q -> d = c - 1) /\
    (((1 - occ + (1 # 2 ^ 48)) * fps <= inject_Z c - fl (e * fps))%Q -> d = c - 2).
Proof.
  intros s e fps occ a b F O1 O2 H. unfold frames_from_times_f in H.
  destruct (Qltb s 0) eqn:A; [discriminate|apply Qltb_ge in A]. destruct (Qltb e 0) eqn:B; [discriminate|apply Qltb_ge in B]. cbn [orb] in H. cbv zeta in H.
  set (x := fl (s * fps)) in *. set (y := fl (e * fps)) in *. clearbody x y.
  destruct (int_part_floor x) as [F1 F2]. destruct (ceil_up y) as [G1 G2].
  destruct (Z.leb_spec (Qceiling y) (Qfloor x)) as [L|L]; [discriminate|].
  assert (O0 : (0 < occ)%Q) by (apply Qlt_le_trans with (1 # 2 ^ 50); [reflexivity|auto]).
  rewrite (proj2 (Qltb_lt 0 occ) O0) in H. apply Ok_inj in H.
  set (f := Qfloor x) in *. set (c := Qceiling y) in *. clearbody f c.
  set (r := (inject_Z (f + 1) - x)%Q) in *. set (w := (inject_Z c - y)%Q).
  assert (R : (r == inject_Z f + 1 - x)%Q) by (unfold r; rewrite inject_Z_plus; reflexivity).
  assert (W : (fl (fl (y - inject_Z c) / fps) == - fl (fl w / fps))%Q).
  { rewrite <- fl_opp. assert (X : (fl (y - inject_Z c) == - fl w)%Q) by (rewrite <- fl_opp; rewrite (fl_m (y - inject_Z c) (- w)); [reflexivity|unfold w; ring]).
    rewrite (fl_m _ (- (fl w / fps))); [reflexivity|]. rewrite X. unfold Qdiv. ring. }
  assert (R0 : (0 < r)%Q) by (rewrite R; lra). assert (R1 : (r <= 1)%Q) by (rewrite R; lra).
  assert (W0 : (0 <= w)%Q) by (unfold w; lra). assert (W1 : (w < 1)%Q) by (unfold w; lra).
  assert (so := occ_near r fps ltac:(lra) ltac:(lra)). assert (so1 := occ_le1 r fps R1 F). assert (wo := occ_near w fps W0 ltac:(lra)). assert (wo1 := occ_le1 w fps ltac:(lra) F).
  assert (FI : (0 < / fps)%Q) by (apply Qinv_lt_0_compat; lra).
  assert (QR : (r / fps * fps == r)%Q) by (field; lra). assert (QW : (w / fps * fps == w)%Q) by (field; lra).
  assert (QR1 : (0 < r / fps)%Q) by (unfold Qdiv; apply Qmult_lt_0_compat; auto). assert (QW1 : (0 <= w / fps)%Q) by (unfold Qdiv; apply Qmult_le_0_compat; lra).
  assert (QR2 : (r / fps <= 1)%Q) by (apply Qle_shift_div_r; lra). assert (QW2 : (w / fps <= 1)%Q) by (apply Qle_shift_div_r; lra).
  assert (so0 := near_pos _ _ _ so QR1). destruct wo as [wo0 wo']. assert (wo : near 2 (fl (fl w / fps)) (w / fps)) by (split; auto). clear wo'.
  apply near_bnd in so; [|vm_compute; discriminate]. apply near_bnd in wo; [|vm_compute; discriminate].
  change (inject_Z (Z.of_nat 2)) with 2%Q in *. rewrite U_eq in *.
  set (S := fl (fl r / fps)) in *. set (V := fl (fl w / fps)) in *. set (qr := (r / fps)%Q) in *. set (qw := (w / fps)%Q) in *.
  set (E' := fl (fl (y - inject_Z c) / fps)) in *.
  assert (D1 : fl (occ - E') = fl (occ + V)) by (apply fl_m; rewrite W; ring). rewrite D1 in H. clearbody S V qr qw E'.
  change (1 # 2 ^ 50)%Q with (1 # 1125899906842624)%Q in *. change (1 # 2 ^ 48)%Q with (1 # 281474976710656)%Q in *.
  assert (C1 : (S < occ)%Q -> Qceiling (fl (occ - S)) = 1).
  { intros X. apply ceil_is; change (inject_Z 1) with 1%Q; [pose proof (fl_gt0 (occ - S) ltac:(lra)); lra|apply (fl_le_Z _ 1); [lia|change (inject_Z 1) with 1%Q; lra]]. }
  assert (C0 : (occ <= S)%Q -> Qceiling (fl (occ - S)) = 0).
  { intros X. apply ceil_is; change (inject_Z 0) with 0%Q; [|apply fl_le0; lra].
    assert (Y : (fl ((1 # 1125899906842624) - 1) <= fl (occ - S))%Q) by (apply fl_mono; lra).
    rewrite (fl_dyadic (-1125899906842623) (-50)) in Y by (reflexivity || discriminate). lra. }
  assert (CE : (occ + V <= 1)%Q -> Qceiling (fl (occ + V)) = 1).
  { intros X. apply ceil_is; change (inject_Z 1) with 1%Q; [pose proof (fl_gt0 (occ + V) ltac:(lra)); lra|apply (fl_le_Z _ 1); [lia|exact X]]. }
  assert (C2 : (1 + (3 # 1125899906842624) <= occ + V)%Q -> Qceiling (fl (occ + V)) = 2).
  { intros X. apply ceil_is; change (inject_Z 2) with 2%Q; [|apply (fl_le_Z _ 2); [lia|change (inject_Z 2) with 2%Q; lra]].
    assert (Y := fl_mono _ _ X). rewrite (fl_dyadic 1125899906842627 (-50) (1 + (3 # 1125899906842624))) in Y by (reflexivity || discriminate). lra. }
  assert (C12 : Qceiling (fl (occ + V)) = 1 \/ Qceiling (fl (occ + V)) = 2).
  { destruct (Qlt_le_dec 1 (fl (occ + V))) as [X|X]; [right|left]; (apply ceil_is; [|]).
    - change (inject_Z 2) with 2%Q; lra.
    - apply (fl_le_Z _ 2); [lia|change (inject_Z 2) with 2%Q; lra].
    - change (inject_Z 1) with 1%Q. pose proof (fl_gt0 (occ + V) ltac:(lra)); lra.
    - exact X. }
  apply (f_equal fst) in H as HA. apply (f_equal snd) in H as HB. cbn [fst snd] in HA, HB. clear H.
  exists f, c, (c - Qceiling (fl (occ + V))). split; [split; auto|]. split; [split; auto|]. split; [exact L|].
  split; [destruct (Qlt_le_dec S occ) as [X|X]; [rewrite (C1 X) in HA; right; lia|rewrite (C0 X) in HA; left; lia]|]. split; [destruct C12 as [->| ->]; lia|]. split; [subst a; lia|].
  split; [|split; [|split]]; intros X.
  - assert (Y : (occ + (1 # 281474976710656) <= qr)%Q). { apply (Qmult_le_r _ _ fps); [lra|]. rewrite QR, R. exact X. } rewrite C0 in HA by lra. lia.
  - assert (Y : (qr <= occ - (1 # 281474976710656))%Q). { apply (Qmult_le_r _ _ fps); [lra|]. rewrite QR, R. exact X. } rewrite C1 in HA by lra. lia.
  - assert (Y : (qw <= 1 - occ - (1 # 281474976710656))%Q). { apply (Qmult_le_r _ _ fps); [lra|]. rewrite QW. exact X. } rewrite CE by lra. lia.
  - assert (Y : (1 - occ + (1 # 281474976710656) <= qw)%Q). { apply (Qmult_le_r _ _ fps); [lra|]. rewrite QW. exact X. } rewrite C2 by lra. lia.
Qed.
