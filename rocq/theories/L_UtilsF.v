(** Lemmas for the stand-alone quantisers in double precision. *)
From Coq Require Import QArith Qabs Qround Lia Lqa Psatz.
From Verif Require Import PyBase L_Base M_Note L_Note L_Note2 M_Events M_Chord S_Graph L_Chord L_Graph5 L_Transforms M_Float S_Rounding S_ShiftF L_Float L_Float2 P_Rounding M_NoteF L_NoteF P_NoteF L_NoteF2 L_ShiftF L_Snap M_Utils S_Utils L_Utils L_Utils2 M_UtilsF.
Open Scope Z_scope.

Lemma near_bnd : forall k a b, Z.of_nat k <= 2 ^ 51 -> near k a b -> (a <= b + b * (4 * inject_Z (Z.of_nat k) * u))%Q /\ (b - b * (4 * inject_Z (Z.of_nat k) * u) <= a)%Q.
Proof.
  intros k a b K N. pose proof (near_abs k a b K N) as A.
  assert (E : (inject_Z (Z.of_nat k) / inject_Z (2 ^ 51) == 4 * inject_Z (Z.of_nat k) * u)%Q) by (unfold Qdiv; assert (X : (/ inject_Z (2 ^ 51) == 4 * u)%Q) by reflexivity; rewrite X; ring).
  rewrite E in A. destruct (Qabsb_spec (a - b)) as [[P Q] | [P Q]]; rewrite Q in A; split; lra.
Qed.

(* frames *)
Lemma frames_f_cover : forall s e fps occ a b, (occ <= 0)%Q -> frames_from_times_f s e fps occ = Ok (a, b) ->
  int_part (fl (s * fps)) a /\ rounded_up (fl (e * fps)) b /\ a < b /\ (0 <= s)%Q /\ (0 <= e)%Q.
Proof.
  intros s e fps occ a b O H. unfold frames_from_times_f in H.
  destruct (Qltb s 0) eqn:A; [discriminate|apply Qltb_ge in A]. destruct (Qltb e 0) eqn:B; [discriminate|apply Qltb_ge in B]. cbn [orb] in H. cbv zeta in H.
  destruct (Z.leb_spec (Qceiling (fl (e * fps))) (Qfloor (fl (s * fps)))) as [L|L]; [discriminate|].
  destruct (Qltb 0 occ) eqn:D; [apply Qltb_lt in D; lra|]. apply Ok_inj in H. apply (f_equal fst) in H as HA. apply (f_equal snd) in H as HB. cbn [fst snd] in HA, HB. subst a b.
  split; [apply int_part_floor|]. split; [apply ceil_up|]. auto.
Qed.
Lemma frames_f_errors : forall s e fps occ,
  (frames_from_times_f s e fps occ = Err ValueError <-> (s < 0)%Q \/ (e < 0)%Q \/ exists k, (fl (e * fps) <= inject_Z k)%Q /\ (inject_Z k <= fl (s * fps))%Q) /\
  (forall x, frames_from_times_f s e fps occ = Err x -> x = ValueError).
Proof.
  intros s e fps occ. unfold frames_from_times_f.
  destruct (Qltb s 0) eqn:A; [apply Qltb_lt in A; cbn [orb]; split; [split; auto|intros x H; congruence]|apply Qltb_ge in A].
  destruct (Qltb e 0) eqn:B; [apply Qltb_lt in B; cbn [orb]; split; [split; auto|intros x H; congruence]|apply Qltb_ge in B]. cbn [orb]. cbv zeta.
  destruct (Qfloor_bounds (fl (s * fps))) as [F1 F2]. destruct (Qceiling_bounds (fl (e * fps))) as [G1 G2].
  set (f := Qfloor (fl (s * fps))) in *. set (c := Qceiling (fl (e * fps))) in *.
  destruct (Z.leb_spec c f) as [L|L].
  - split; [|intros x H; congruence]. split; [intros _; right; right; exists f|auto]. rewrite Zle_Qle in L. split; lra.
  - split.
    + split; [destruct (Qltb 0 occ); discriminate|]. intros [X|[X|[k [K1 K2]]]]; [exfalso; lra|exfalso; lra|].
      assert (k < f + 1) by (rewrite Zlt_Qlt; inj; lra). assert (c < k + 1) by (rewrite Zlt_Qlt; inj; lra). lia.
    + intros x. destruct (Qltb 0 occ); discriminate.
Qed.
Lemma frames_f_ok : forall s e fps occ, (0 <= s)%Q -> (0 <= e)%Q -> (fl (s * fps) < fl (e * fps))%Q -> exists a b, frames_from_times_f s e fps occ = Ok (a, b).
Proof.
  intros s e fps occ A B G. destruct (frames_f_errors s e fps occ) as [E1 E2].
  destruct (frames_from_times_f s e fps occ) as [[a b]|x] eqn:R; [exists a, b; reflexivity|exfalso].
  rewrite (E2 x eq_refl) in E1. destruct (proj1 E1 eq_refl) as [X|[X|[k [K1 K2]]]]; lra.
Qed.
Lemma fl_gap : forall x y, (0 <= x)%Q -> (0 <= y)%Q -> (x + y < inject_Z (2 ^ 53) * (y - x))%Q -> (fl x < fl y)%Q.
Proof.
  intros x y X Y G. eapply rounded_gap; [apply fl_rounded|apply fl_rounded|]. rewrite !Qabs_pos by auto. exact G.
Qed.
Lemma frames_f_gap : forall s e fps occ, (0 <= s)%Q -> (0 < fps)%Q -> (s + e < inject_Z (2 ^ 53) * (e - s))%Q -> exists a b, frames_from_times_f s e fps occ = Ok (a, b).
Proof.
  intros s e fps occ S F G. change (inject_Z (2 ^ 53)) with 9007199254740992%Q in *. assert (E : (s < e)%Q) by lra. apply frames_f_ok; [auto|lra|].
  assert (P1 : (0 <= s * fps)%Q) by (apply Qmult_le_0_compat; lra). assert (P2 : (0 <= e * fps)%Q) by (apply Qmult_le_0_compat; lra).
  apply fl_gap; auto. change (inject_Z (2 ^ 53)) with 9007199254740992%Q.
  setoid_replace (s * fps + e * fps)%Q with ((s + e) * fps)%Q by ring. setoid_replace (9007199254740992 * (e * fps - s * fps))%Q with ((9007199254740992 * (e - s)) * fps)%Q by ring.
  apply Qmult_lt_compat_r; auto.
Qed.
Lemma fl_clear_floor : forall x, (0 <= x)%Q -> (forall k, (x * u < Qabs (x - inject_Z k))%Q) -> Qfloor (fl x) = Qfloor x.
Proof.
  intros x X C. destruct (fl_err x X) as [E1 E2]. destruct (Qfloor_bounds x) as [F1 F2]. apply Qfloor_unique.
  - pose proof (C (Qfloor x)) as K. rewrite Qabs_pos in K by lra. lra.
  - pose proof (C (Qfloor x + 1)) as K. rewrite inject_Z_plus in K. change (inject_Z 1) with 1%Q in K. rewrite Qabs_neg in K by lra. lra.
Qed.
Lemma fl_clear_ceil : forall x, (0 <= x)%Q -> (forall k, (x * u < Qabs (x - inject_Z k))%Q) -> Qceiling (fl x) = Qceiling x.
Proof.
  intros x X C. destruct (fl_err x X) as [E1 E2]. destruct (ceil_up x) as [F1 F2]. apply (up_unique (fl x) (fl x)); [reflexivity|apply ceil_up|]. split.
  - pose proof (C (Qceiling x)) as K. rewrite Qabs_neg in K by lra. lra.
  - pose proof (C (Qceiling x - 1)) as K. unfold Z.sub in K. rewrite inject_Z_plus in K. change (inject_Z (- (1))) with (-1)%Q in K. rewrite Qabs_pos in K by lra. lra.
Qed.
Lemma frames_f_agree : forall s e fps occ, (occ <= 0)%Q -> (0 < fps)%Q ->
  (forall k, (s * fps * u < Qabs (s * fps - inject_Z k))%Q) -> (forall k, (e * fps * u < Qabs (e * fps - inject_Z k))%Q) ->
  frames_from_times_f s e fps occ = frames_from_times s e fps occ.
Proof.
  intros s e fps occ O F C1 C2. unfold frames_from_times_f, frames_from_times.
  destruct (Qltb s 0) eqn:A; [reflexivity|apply Qltb_ge in A]. destruct (Qltb e 0) eqn:B; [reflexivity|apply Qltb_ge in B]. cbn [orb]. cbv zeta.
  assert (P1 : (0 <= s * fps)%Q) by (apply Qmult_le_0_compat; lra). assert (P2 : (0 <= e * fps)%Q) by (apply Qmult_le_0_compat; lra).
  rewrite (fl_clear_floor _ P1 C1), (fl_clear_ceil _ P2 C2). destruct (Qltb 0 occ) eqn:D; [apply Qltb_lt in D; lra|]. reflexivity.
Qed.
(* the start of a frame *)
Lemma frame_time : forall k fps, 0 <= k -> 0 < fps -> near 2 (fl (fl (inject_Z k / inject_Z fps) * inject_Z fps)) (inject_Z k).
Proof.
  intros k fps K F. apply near_fl'. assert (F0 : (0 < inject_Z fps)%Q) by (change 0%Q with (inject_Z 0); rewrite <- Zlt_Qlt; lia). assert (K0 : (0 <= inject_Z k)%Q) by (change 0%Q with (inject_Z 0); rewrite <- Zle_Qle; lia).
  apply (near_m 1 (fl (inject_Z k / inject_Z fps) * inject_Z fps) (inject_Z k / inject_Z fps * inject_Z fps)); [reflexivity|field; lra|].
  apply near_mul; [lra|]. apply near_fl. apply Qle_shift_div_l; lra.
Qed.
Lemma frame_start : forall k fps, 0 <= k < 2 ^ 49 -> 0 < fps -> let x := fl (fl (inject_Z k / inject_Z fps) * inject_Z fps) in
  (Qfloor x = k \/ Qfloor x = k - 1) /\ (Qceiling x = k \/ Qceiling x = k + 1).
Proof.
  intros k fps [K1 K2] F x. pose proof (frame_time k fps K1 F) as N. fold x in N. apply near_bnd in N; [|vm_compute; discriminate]. clearbody x.
  assert (KB : (0 <= inject_Z k)%Q /\ (inject_Z k <= 562949953421312)%Q) by (split; [change 0%Q with (inject_Z 0)|change 562949953421312%Q with (inject_Z (2 ^ 49))]; rewrite <- Zle_Qle; lia).
  change (inject_Z (Z.of_nat 2)) with 2%Q in N. rewrite U_eq in N. set (q := inject_Z k) in *.
  assert (B : (q - 1 < x)%Q /\ (x < q + 1)%Q) by (split; lra).
  destruct (Qfloor_bounds x) as [A1 A2]. destruct (ceil_up x) as [C1 C2]. unfold q in B.
  assert (H1 : k - 1 < Qfloor x + 1) by (rewrite Zlt_Qlt; unfold Z.sub; inj; change (inject_Z (- (1))) with (-1)%Q; lra).
  assert (H2 : Qfloor x < k + 1) by (rewrite Zlt_Qlt; inj; lra).
  assert (H3 : k - 1 < Qceiling x) by (rewrite Zlt_Qlt; unfold Z.sub; inj; change (inject_Z (- (1))) with (-1)%Q; lra).
  assert (H4 : Qceiling x < k + 1 + 1) by (rewrite Zlt_Qlt; inj; lra). lia.
Qed.
Lemma frames_f_own : forall k fps, 0 <= k < 2 ^ 49 - 1 -> 0 < fps ->
  exists a b, frames_from_times_f (fl (inject_Z k / inject_Z fps)) (fl (inject_Z (k + 1) / inject_Z fps)) (inject_Z fps) 0 = Ok (a, b) /\ (a = k \/ a = k - 1) /\ (b = k + 1 \/ b = k + 2).
Proof.
  intros k fps K F. assert (F0 : (0 < inject_Z fps)%Q) by (change 0%Q with (inject_Z 0); rewrite <- Zlt_Qlt; lia).
  assert (K0 : forall j, 0 <= j -> (0 <= inject_Z j / inject_Z fps)%Q). { intros j J. apply Qle_shift_div_l; [auto|]. setoid_replace (0 * inject_Z fps)%Q with (inject_Z 0) by reflexivity. rewrite <- Zle_Qle. lia. }
  destruct (frame_start k fps ltac:(lia) F) as [S _]. destruct (frame_start (k + 1) fps ltac:(lia) F) as [_ E].
  unfold frames_from_times_f.
  destruct (Qltb (fl (inject_Z k / inject_Z fps)) 0) eqn:A; [apply Qltb_lt in A; pose proof (fl_nonneg _ (K0 k ltac:(lia))); lra|].
  destruct (Qltb (fl (inject_Z (k + 1) / inject_Z fps)) 0) eqn:B; [apply Qltb_lt in B; pose proof (fl_nonneg _ (K0 (k + 1) ltac:(lia))); lra|]. cbn [orb]. cbv zeta.
  set (f := Qfloor _) in *. set (c := Qceiling _) in *. clearbody f c. destruct (Z.leb_spec c f) as [L|L]; [exfalso; lia|]. exists f, c. split; [reflexivity|]. lia.
Qed.
Lemma frames_f_pow2 : forall k j, 0 <= k < 2 ^ 53 -> 0 <= j ->
  frames_from_times_f (fl (inject_Z k / inject_Z (2 ^ j))) (fl (inject_Z (k + 1) / inject_Z (2 ^ j))) (inject_Z (2 ^ j)) 0 = Ok (k, k + 1).
Proof.
  intros k j K J.
  assert (E : forall n, 0 <= n <= 2 ^ 53 -> (fl (inject_Z n / inject_Z (2 ^ j)) == inject_Z n / inject_Z (2 ^ j))%Q).
  { intros n N. apply (fl_exact n (- j)); try lia. rewrite (P_Z j J). assert (X := P_inv j). assert (P0 := P_pos j). apply (Qmult_inj_r _ _ (P j)); [lra|]. unfold Qdiv.
    setoid_replace (inject_Z n * P (- j) * P j)%Q with (inject_Z n * (P j * P (- j)))%Q by ring. rewrite X. field. lra. }
  assert (P0 : (0 < inject_Z (2 ^ j))%Q) by (change 0%Q with (inject_Z 0); rewrite <- Zlt_Qlt; lia).
  assert (V : forall n, 0 <= n <= 2 ^ 53 -> (fl (fl (inject_Z n / inject_Z (2 ^ j)) * inject_Z (2 ^ j)) == inject_Z n)%Q).
  { intros n N. apply fl_int; [lia|]. rewrite (E n N). field. lra. }
  assert (NN : forall n, 0 <= n -> (0 <= fl (inject_Z n / inject_Z (2 ^ j)))%Q). { intros n N. apply fl_nonneg. apply Qle_shift_div_l; [auto|]. setoid_replace (0 * inject_Z (2 ^ j))%Q with (inject_Z 0) by (change (inject_Z 0) with 0%Q; ring). rewrite <- Zle_Qle. lia. }
  unfold frames_from_times_f.
  destruct (Qltb (fl (inject_Z k / inject_Z (2 ^ j))) 0) eqn:A; [apply Qltb_lt in A; pose proof (NN k ltac:(lia)); lra|].
  destruct (Qltb (fl (inject_Z (k + 1) / inject_Z (2 ^ j))) 0) eqn:B; [apply Qltb_lt in B; pose proof (NN (k + 1) ltac:(lia)); lra|]. cbn [orb]. cbv zeta.
  rewrite (Qfloor_comp _ _ (V k ltac:(lia))), (Qceiling_comp _ _ (V (k + 1) ltac:(lia))), Qfloor_Z, Qceiling_Z. destruct (Z.leb_spec (k + 1) k); [lia|]. reflexivity.
Qed.

(* ft_quantize *)
Lemma ft_f_ok : forall t sps thr, (0 < sps)%Q -> (0 <= thr)%Q -> (thr < 1)%Q ->
  exists r, ft_quantize_f t sps thr = Ok r /\ rounded_at (fl (sps * thr)) (fl (t * sps)) r.
Proof.
  intros t sps thr A B C. unfold ft_quantize_f.
  destruct (Qle_bool sps 0) eqn:E1; [apply Qle_bool_iff in E1; lra|].
  destruct (Qltb thr 0) eqn:E2; [apply Qltb_lt in E2; lra|]. destruct (Qle_bool 1 thr) eqn:E3; [apply Qle_bool_iff in E3; lra|]. cbn [orb]. cbv zeta.
  set (x := fl (t * sps)). set (th := fl (sps * thr)). clearbody x th.
  destruct (Qltb x 0) eqn:E4; [apply Qltb_lt in E4|apply Qltb_ge in E4].
  - unfold mod1. rewrite trunc_neg by auto. assert (AB : (Qabsb x == Qabs x)%Q) by (destruct (Qabsb_abs x) as [Y1 [Y2 [Y3|Y3]]]; apply Qabs_case; intros; lra).
    assert (F : Qfloor (Qabsb x) = Qfloor (Qabs x)) by (apply Qfloor_comp; auto). rewrite F.
    destruct (Qle_bool th (Qabsb x - inject_Z (Qfloor (Qabs x)))) eqn:E5.
    + apply Qle_bool_iff in E5. eexists; split; [reflexivity|]. exists (Qfloor (Qabs x)), (Qfloor (Qabs x) + 1).
      split; [apply int_part_floor|]. split; [left; split; [lra|reflexivity]|]. right. split; [exact E4|lia].
    + apply Qle_bool_false in E5. eexists; split; [reflexivity|]. exists (Qfloor (Qabs x)), (Qfloor (Qabs x)).
      split; [apply int_part_floor|]. split; [right; split; [lra|reflexivity]|]. right. split; [exact E4|lia].
  - unfold mod1. rewrite trunc_floor by auto. assert (AB : (Qabs x == x)%Q) by (apply Qabs_pos; auto).
    assert (IP : int_part (Qabs x) (Qfloor x)) by (destruct (Qfloor_bounds x); split; lra).
    destruct (Qle_bool th (x - inject_Z (Qfloor x))) eqn:E5.
    + apply Qle_bool_iff in E5. eexists; split; [reflexivity|]. exists (Qfloor x), (Qfloor x + 1).
      split; [exact IP|]. split; [left; split; [lra|reflexivity]|]. left. split; [exact E4|lia].
    + apply Qle_bool_false in E5. eexists; split; [reflexivity|]. exists (Qfloor x), (Qfloor x).
      split; [exact IP|]. split; [right; split; [lra|reflexivity]|]. left. split; [exact E4|lia].
Qed.
Lemma ft_f_errors : forall t sps thr x, ft_quantize_f t sps thr = Err x <-> x = ValueError /\ ((sps <= 0)%Q \/ (thr < 0)%Q \/ (1 <= thr)%Q).
Proof.
  intros t sps thr x. destruct (Qlt_le_dec 0 sps) as [A|A]; [destruct (Qlt_le_dec thr 0) as [B|B]; [|destruct (Qlt_le_dec thr 1) as [C|C]]|].
  - unfold ft_quantize_f. rewrite (proj2 (Qltb_lt thr 0) B). cbn [orb]. destruct (Qle_bool sps 0); (split; [intros H; injection H as <-; auto|intros [-> _]; reflexivity]).
  - destruct (ft_f_ok t sps thr A B C) as [r [R _]]. rewrite R. split; [discriminate|]. intros [_ [X|[X|X]]]; lra.
  - unfold ft_quantize_f. rewrite (proj2 (Qle_bool_iff 1 thr) C), orb_true_r. destruct (Qle_bool sps 0); (split; [intros H; injection H as <-; auto|intros [-> _]; reflexivity]).
  - unfold ft_quantize_f. rewrite (proj2 (Qle_bool_iff sps 0) A). split; [intros H; injection H as <-; auto|intros [-> _]; reflexivity].
Qed.
Lemma ft_f_is : forall t sps thr r, ft_quantize_f t sps thr = Ok r -> (0 < sps)%Q /\ (0 <= thr)%Q /\ rounded_at (fl (sps * thr)) (fl (t * sps)) r.
Proof.
  intros t sps thr r H.
  assert (A : (0 < sps)%Q) by (apply Qnot_le_lt; intros X; rewrite (proj2 (ft_f_errors t sps thr ValueError)) in H by auto; discriminate).
  assert (B : (0 <= thr)%Q) by (apply Qnot_lt_le; intros X; rewrite (proj2 (ft_f_errors t sps thr ValueError)) in H by auto; discriminate).
  assert (C : (thr < 1)%Q) by (apply Qnot_le_lt; intros X; rewrite (proj2 (ft_f_errors t sps thr ValueError)) in H by auto; discriminate).
  destruct (ft_f_ok t sps thr A B C) as [r' [R S]]. rewrite R in H. apply Ok_inj in H. subst. auto.
Qed.
