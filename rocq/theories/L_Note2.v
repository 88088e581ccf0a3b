From Coq Require Import Lia Lqa Qround QArith.
From Verif Require Import PyBase L_Base M_Note S_Note L_Note.
Open Scope Z_scope.

(** ** C16 witnesses *)
Definition mk0 (p : Z) (s e : Q) : note := mkN p 100 0 0 0 4 4 false s e (-1) (-1).
Lemma n_eqb_not_trans : exists a b c, n_new a = Ok a /\ n_new b = Ok b /\ n_new c = Ok c /\
  n_eqb a b = true /\ n_eqb b c = true /\ n_eqb a c = false.
Proof.
  exists (mk0 60 0 (1#2)), (mk0 60 (1 # 1000000000) (1#2)), (mk0 60 (2 # 1000000000) (1#2)).
  repeat split; vm_compute; reflexivity.
Qed.
Lemma n_ltb_not_trans : exists a b c, n_new a = Ok a /\ n_new b = Ok b /\ n_new c = Ok c /\
  n_ltb a b = true /\ n_ltb b c = true /\ n_ltb a c = false /\ n_ltb c a = true.
Proof.
  exists (mk0 62 0 (1#2)), (mk0 60 (12 # 10000000) (1#2)), (mk0 61 (6 # 10000000) (1#2)).
  repeat split; vm_compute; reflexivity.
Qed.

(** ** setters, generic facts *)
Lemma run_ok : forall A (r : res unit * A) k a', run r k = (Ok tt, a') ->
  exists a, r = (Ok tt, a) /\ k a = (Ok tt, a').
Proof. intros A [[[]|e] a] k a' H; simpl in H; [eauto|discriminate]. Qed.
Lemma set_start_ok : forall n v n', n_set_start n v = (Ok tt, n') ->
  n' = with_start n v /\ (0 <= v)%Q /\ (v < n_end n)%Q.
Proof.
  intros n v n'; unfold n_set_start. qcase (Qltb v 0); [discriminate|].
  qcase (Qle_bool (n_end n) v); [discriminate|]. intro H; injection H as <-. auto.
Qed.
Lemma set_end_ok : forall n v n', n_set_end n v = (Ok tt, n') ->
  n' = with_end n v /\ (0 <= v)%Q /\ (n_start n < v)%Q.
Proof.
  intros n v n'; unfold n_set_end. qcase (Qltb v 0); [discriminate|].
  qcase (Qle_bool v (n_start n)); [discriminate|]. intro H; injection H as <-. auto.
Qed.
Lemma set_start_eq : forall n v, (0 <= v)%Q -> (v < n_end n)%Q -> n_set_start n v = (Ok tt, with_start n v).
Proof. intros. apply n_set_start_spec; auto. Qed.
Lemma set_end_eq : forall n v, (0 <= v)%Q -> (n_start n < v)%Q -> n_set_end n v = (Ok tt, with_end n v).
Proof. intros. apply n_set_end_spec; auto. Qed.
Lemma set_qs_eq : forall n v, (0 <= v)%Q -> n_set_qs n v = (Ok tt, with_qs n v).
Proof. intros; unfold n_set_qs. qcase (Qltb v 0); [lra|auto]. Qed.
Lemma set_qe_eq : forall n v, (0 <= v)%Q -> n_set_qe n v = (Ok tt, with_qe n v).
Proof. intros; unfold n_set_qe. qcase (Qltb v 0); [lra|auto]. Qed.
Lemma Qltb_false : forall a b, (b <= a)%Q -> Qltb a b = false.
Proof. intros. qcase (Qltb a b); [lra|auto]. Qed.
Lemma Qle_bool_ff : forall a b, (b < a)%Q -> Qle_bool a b = false.
Proof. intros. qcase (Qle_bool a b); [lra|auto]. Qed.

(** ** rounding *)
Lemma round_half_even_near : forall x, (Qabsb (inject_Z (round_half_even x) - x) <= 1 # 2)%Q.
Proof.
  intro x. destruct (Qfloor_bounds x) as [F1 F2]. unfold round_half_even.
  set (f := Qfloor x) in *. clearbody f.
  assert (P : (inject_Z (f + 1) == inject_Z f + 1)%Q) by (rewrite inject_Z_plus; reflexivity).
  qcase (Qltb (x - inject_Z f) (1 # 2)); [|qcase (Qltb (1 # 2) (x - inject_Z f)); [|destruct (Z.even f)]];
    match goal with |- (Qabsb ?y <= _)%Q => destruct (Qabsb_abs y) as [_ [_ [H|H]]]; rewrite H end;
    rewrite ?P; lra.
Qed.
Lemma around2_near : forall x, (Qabsb (around2 x - x) <= 1 # 200)%Q.
Proof.
  intro x. unfold around2. pose proof (round_half_even_near (x * 100)) as H.
  set (r := inject_Z (round_half_even (x * 100))) in *. clearbody r.
  destruct (Qabsb_abs (r - x * 100)) as [H1 [H2 _]].
  assert (E : (r / 100 == r * (1 # 100))%Q) by (unfold Qdiv; reflexivity).
  destruct (Qabsb_abs (r / 100 - x)) as [_ [_ [H3|H3]]]; rewrite H3, E; lra.
Qed.

(** ** C19 *)
Lemma quantize_ok_valid : forall n sps amount ms n',
  n_quantize_in_place n sps amount ms = (Ok tt, n') ->
  (0 <= n_qs n')%Q /\ (n_qs n' < n_qe n')%Q /\ (0 <= n_start n')%Q /\ (n_start n' < n_end n')%Q.
Proof.
  intros n sps amount ms n' H. unfold n_quantize_in_place in H.
  destruct (quantize_step (n_start n) sps amount true) as [s0|e]; [|discriminate].
  destruct (quantize_step (n_end n) sps amount false) as [e0|e]; [|discriminate].
  cbv zeta in H. apply run_ok in H as [n2 [_ H]].
  qcase (Qltb (n_qs n2) 0); [discriminate|]. qcase (Qltb (n_qe n2) 0); [discriminate|].
  qcase (Qle_bool (n_qe n2) (n_qs n2)); [discriminate|].
  match type of H with (if Qltb ?a ?b then _ else _) = _ => destruct (Qltb a b) end;
    apply run_ok in H as [n3 [H3 H4]].
  - apply set_start_ok in H3 as [-> [? ?]]. apply set_end_ok in H4 as [-> [? ?]].
    cbn [with_start with_end n_qs n_qe n_start n_end] in *. tauto.
  - apply set_end_ok in H3 as [-> [? ?]]. apply set_start_ok in H4 as [-> [? ?]].
    cbn [with_start with_end n_qs n_qe n_start n_end] in *. tauto.
Qed.


(** what the setters used by quantisation can touch *)
Lemma steps_part : forall n n2 f g, run (n_set_qs n f) (fun n1 => n_set_qe n1 (g n1)) = n2 ->
  n_start (snd n2) = n_start n /\ n_end (snd n2) = n_end n /\ same_identity (snd n2) n.
Proof.
  intros n n2 f g <-. unfold n_set_qs, n_set_qe, run, same_identity.
  destruct (Qltb f 0); simpl; [repeat split; auto|]. destruct (Qltb (g (with_qs n f)) 0); simpl; repeat split; auto.
Qed.
Lemma set_start_id : forall n v, same_identity (snd (n_set_start n v)) n.
Proof. intros; unfold n_set_start, same_identity. destruct (Qltb v 0); [|destruct (Qle_bool (n_end n) v)]; simpl; repeat split; auto. Qed.
Lemma set_end_id : forall n v, same_identity (snd (n_set_end n v)) n.
Proof. intros; unfold n_set_end, same_identity. destruct (Qltb v 0); [|destruct (Qle_bool v (n_start n))]; simpl; repeat split; auto. Qed.
Lemma same_identity_trans : forall a b c, same_identity a b -> same_identity b c -> same_identity a c.
Proof. unfold same_identity; intros; intuition congruence. Qed.
Lemma same_identity_refl : forall a, same_identity a a.
Proof. unfold same_identity; intuition. Qed.
Lemma run_snd : forall A (P : A -> Prop) (r : res unit * A) k, P (snd r) -> (forall a, P a -> P (snd (k a))) -> P (snd (run r k)).
Proof. intros A P [[[]|e] a] k H K; simpl in *; auto. Qed.

Lemma quantize_keeps : forall n sps amount ms, 
  same_identity (snd (n_quantize_in_place n sps amount ms)) n /\
  ((n_start n < n_end n)%Q -> (n_start (snd (n_quantize_in_place n sps amount ms)) < n_end (snd (n_quantize_in_place n sps amount ms)))%Q).
Proof.
  intros. unfold n_quantize_in_place.
  destruct (quantize_step (n_start n) sps amount true) as [s0|e]; [|simpl; auto using same_identity_refl].
  destruct (quantize_step (n_end n) sps amount false) as [e0|e]; [|simpl; auto using same_identity_refl].
  cbv zeta.
  match goal with |- context [run (if n_is_quantized n then ?A else ?B) ?K] => set (r := if n_is_quantized n then A else B) end.
  assert (R : n_start (snd r) = n_start n /\ n_end (snd r) = n_end n /\ same_identity (snd r) n).
  { subst r. destruct (n_is_quantized n); eapply steps_part; reflexivity. }
  clearbody r. destruct R as [R1 [R2 R3]].
  assert (X : forall b ns ne m, 
     let w := (if b : bool then run (n_set_start m ns) (fun n3 => n_set_end n3 (n_start n3 + (n_end m - n_start m))%Q)
     else run (n_set_end m ne) (fun n3 => n_set_start n3 ns)) in
     same_identity (snd w) m /\ ((n_start m < n_end m)%Q -> (n_start (snd w) < n_end (snd w))%Q)).
  { intros b ns ne m. destruct b; cbv zeta; split.
    - apply run_snd with (P := fun a => same_identity a m); [apply set_start_id|].
      intros a H; eapply same_identity_trans; [apply set_end_id|exact H].
    - intro V. apply run_snd with (P := fun a => (n_start a < n_end a)%Q); [apply set_start_keeps; auto|].
      intros; apply set_end_keeps; auto.
    - apply run_snd with (P := fun a => same_identity a m); [apply set_end_id|].
      intros a H; eapply same_identity_trans; [apply set_start_id|exact H].
    - intro V. apply run_snd with (P := fun a => (n_start a < n_end a)%Q); [apply set_end_keeps; auto|].
      intros; apply set_start_keeps; auto. }
  destruct r as [[[]|e] m]; cbn [run snd] in *.
  - destruct (Qltb (n_qs m) 0); [cbn [snd]; split; [auto|rewrite R1, R2; auto]|].
    destruct (Qltb (n_qe m) 0); [cbn [snd]; split; [auto|rewrite R1, R2; auto]|].
    destruct (Qle_bool (n_qe m) (n_qs m)); [cbn [snd]; split; [auto|rewrite R1, R2; auto]|].
    match goal with |- context [if Qltb ?a ?b then run (n_set_start _ ?ns) _ else _] => destruct (X (Qltb a b) ns a m) as [X1 X2] end.
    split; [eapply same_identity_trans; eauto|]. intro V; apply X2; rewrite R1, R2; auto.
  - split; auto. rewrite R1, R2; auto.
Qed.

Section QuantSuccess.
Variables (n : note) (sps : Z) (amount : Q).
Hypothesis Hs : (0 <= n_start n)%Q.
Hypothesis Hse : (n_start n < n_end n)%Q.
Hypothesis Hsps : 0 < sps.
Hypothesis Ha : (0 < amount)%Q.
Hypothesis Ha1 : (amount <= 1)%Q.
Let fs := Qfloor (n_start n * inject_Z sps + (1 - amount)).
Let ce := Qceiling (n_end n * inject_Z sps + (1 - amount)).

Local Lemma sps_pos : (0 < inject_Z sps)%Q.
Proof. change 0%Q with (inject_Z 0). apply inject_Z_lt; auto. Qed.
Local Lemma xs_nonneg : (0 <= n_start n * inject_Z sps + (1 - amount))%Q.
Proof. pose proof sps_pos. nra. Qed.
Local Lemma xse : (n_start n * inject_Z sps + (1 - amount) < n_end n * inject_Z sps + (1 - amount))%Q.
Proof. pose proof sps_pos. nra. Qed.
Local Lemma fs_nonneg : 0 <= fs.
Proof. change 0 with (Qfloor 0). apply Qfloor_resp_le. apply xs_nonneg. Qed.
Local Lemma fs_ce : fs < ce.
Proof.
  apply inject_Z_lt. destruct (Qfloor_bounds (n_start n * inject_Z sps + (1 - amount))) as [F1 _].
  destruct (Qceiling_bounds (n_end n * inject_Z sps + (1 - amount))) as [C1 _].
  fold fs in F1. fold ce in C1. pose proof xse. lra.
Qed.
Local Lemma qstep_s : quantize_step (n_start n) sps amount true = Ok fs.
Proof.
  unfold quantize_step. rewrite (proj2 (Z.leb_gt sps 0)) by auto. rewrite Qle_bool_ff by auto.
  cbv zeta. fold fs. rewrite Z.max_r by apply fs_nonneg. reflexivity.
Qed.
Local Lemma qstep_e : quantize_step (n_end n) sps amount false = Ok ce.
Proof.
  unfold quantize_step. rewrite (proj2 (Z.leb_gt sps 0)) by auto. rewrite Qle_bool_ff by auto.
  cbv zeta. fold ce. rewrite Z.max_r; auto. pose proof fs_nonneg; pose proof fs_ce; lia.
Qed.
Local Lemma div_bounds : forall (z : Z) x, (inject_Z z / inject_Z sps <= x <-> inject_Z z <= x * inject_Z sps)%Q /\
   (x <= inject_Z z / inject_Z sps <-> x * inject_Z sps <= inject_Z z)%Q.
Proof.
  intros. pose proof sps_pos as P. split.
  - split; intro H.
    + apply Qmult_le_r with (z := inject_Z sps) in H; auto.
      assert (E : (inject_Z z / inject_Z sps * inject_Z sps == inject_Z z)%Q) by (field; lra). lra.
    + apply Qle_shift_div_r; auto.
  - split; intro H.
    + apply Qmult_le_r with (z := inject_Z sps) in H; auto.
      assert (E : (inject_Z z / inject_Z sps * inject_Z sps == inject_Z z)%Q) by (field; lra). lra.
    + apply Qle_shift_div_l; auto.
Qed.
Let w := (1 / inject_Z sps)%Q.
Local Lemma w_mul : (w * inject_Z sps == 1)%Q.
Proof. unfold w. field. pose proof sps_pos; lra. Qed.
Local Lemma w_pos : (0 < w)%Q.
Proof. unfold w. apply Qlt_shift_div_l; [apply sps_pos|lra]. Qed.
Local Lemma s_near : (n_start n - w <= inject_Z fs / inject_Z sps)%Q /\ (inject_Z fs / inject_Z sps <= n_start n + w)%Q.
Proof.
  destruct (Qfloor_bounds (n_start n * inject_Z sps + (1 - amount))) as [F1 F2]. fold fs in F1, F2.
  pose proof w_mul as W. split; apply div_bounds; ring_simplify; rewrite ?W; lra.
Qed.
Local Lemma e_near : (n_end n <= inject_Z ce / inject_Z sps)%Q /\ (inject_Z ce / inject_Z sps <= n_end n + 2 * w)%Q.
Proof.
  destruct (Qceiling_bounds (n_end n * inject_Z sps + (1 - amount))) as [F1 F2]. fold ce in F1, F2.
  pose proof w_mul as W. split; apply div_bounds; [lra|].
  assert (E : ((n_end n + 2 * w) * inject_Z sps == n_end n * inject_Z sps + 2)%Q).
  { transitivity (n_end n * inject_Z sps + 2 * (w * inject_Z sps))%Q; [ring|]. rewrite W. ring. }
  rewrite E. lra.
Qed.

Lemma quantize_success : exists n', n_quantize_in_place n sps amount None = (Ok tt, n') /\
  (n_qs n' == inject_Z fs)%Q /\
  (if n_is_quantized n then n_qe n' == inject_Z fs + inject_Z (ce - fs) / inject_Z sps else n_qe n' == inject_Z ce)%Q /\
  (Qabsb (n_start n' - n_start n) <= w + (1 # 200))%Q /\
  (Qabsb (n_end n' - n_end n) <= 2 * w + (1 # 200))%Q /\
  same_identity n' n.
Proof.
  pose proof fs_nonneg as F0. pose proof fs_ce as FC. pose proof sps_pos as SP. pose proof w_pos as WP.
  assert (I : snd (n_quantize_in_place n sps amount None) = snd (n_quantize_in_place n sps amount None)) by reflexivity.
  pose proof (proj1 (quantize_keeps n sps amount None)) as ID.
  unfold n_quantize_in_place in *. rewrite qstep_s, qstep_e in *.
  replace (if (sps =? 1) && (fs =? ce) then ce + 1 else ce) with ce in *
    by (destruct (Z.eqb_spec fs ce); [lia|rewrite andb_false_r; reflexivity]).
  cbv zeta in *.
  match type of ID with context [run (if n_is_quantized n then ?A else ?B) ?K] => set (r := if n_is_quantized n then A else B) in *; set (k := K) in * end.
  assert (Zf : (0 <= inject_Z fs)%Q) by (change 0%Q with (inject_Z 0); apply inject_Z_le; auto).
  assert (Zc : (inject_Z fs < inject_Z ce)%Q) by (apply inject_Z_lt; auto).
  assert (R : exists n2, r = (Ok tt, n2) /\ n_start n2 = n_start n /\ n_end n2 = n_end n /\ 
     (n_qs n2 == inject_Z fs)%Q /\
     (if n_is_quantized n then n_qe n2 == inject_Z fs + inject_Z (ce - fs) / inject_Z sps else n_qe n2 == inject_Z ce)%Q /\
     (n_qs n2 < n_qe n2)%Q).
  { subst r. destruct (n_is_quantized n).
    - destruct (Qmaxb_spec 0 (inject_Z fs)) as [[M ->]|[M _]]; [|lra].
      assert (D : (0 < (inject_Z ce - inject_Z fs) / inject_Z sps)%Q) by (apply Qlt_shift_div_l; lra).
      rewrite set_qs_eq by auto. cbn [run]. rewrite set_qe_eq by (cbn [with_qs n_qs]; lra).
      eexists; split; [reflexivity|]. cbn [with_qs with_qe n_start n_end n_qs n_qe].
      split; [reflexivity|]. split; [reflexivity|]. split; [reflexivity|].
      assert (E : (inject_Z (ce - fs) / inject_Z sps == (inject_Z ce - inject_Z fs) / inject_Z sps)%Q).
      { unfold Z.sub. rewrite inject_Z_plus, inject_Z_opp. reflexivity. }
      split; [rewrite E; reflexivity|lra].
    - assert (M0 : forall t, (0 <= t)%Q -> (inject_Z (Qfloor (Qmaxb 0 (- t) * inject_Z sps)) == 0)%Q).
      { intros t Ht. assert (M : (Qmaxb 0 (- t) == 0)%Q) by (destruct (Qmaxb_max 0 (- t)) as [M1 [M2 [M3|M3]]]; lra).
        rewrite M. setoid_replace (0 * inject_Z sps)%Q with 0%Q by ring. reflexivity. }
      pose proof (M0 (n_start n) Hs) as M1. pose proof (M0 (n_end n)) as M2.
      assert (M3 : (inject_Z (Qfloor (Qmaxb 0 (- n_end n) * inject_Z sps)) == 0)%Q) by (apply M2; lra).
      rewrite set_qs_eq by lra. cbn [run]. rewrite set_qe_eq by lra.
      eexists; split; [reflexivity|]. cbn [with_qs with_qe n_start n_end n_qs n_qe].
      split; [reflexivity|]. split; [reflexivity|]. split; [lra|]. split; lra. }
  destruct R as [n2 [-> [R1 [R2 [R3 [R4 R5]]]]]].
  cbn [run] in *. subst k. cbv beta in *.
  rewrite (Qltb_false (n_qs n2)), (Qltb_false (n_qe n2)), (Qle_bool_ff (n_qe n2)) in * by lra.
  destruct s_near as [S1 S2], e_near as [E1 E2].
  pose proof (around2_near (inject_Z fs / inject_Z sps)) as AS.
  pose proof (around2_near (inject_Z ce / inject_Z sps)) as AE.
  set (rs := around2 (inject_Z fs / inject_Z sps)) in *. set (re := around2 (inject_Z ce / inject_Z sps)) in *.
  clearbody rs re.
  set (qs_ := (inject_Z fs / inject_Z sps)%Q) in *. set (qe_ := (inject_Z ce / inject_Z sps)%Q) in *. clearbody qs_ qe_.
  rewrite R1, R2 in *.
  set (ns := Qmaxb 0 (Qminb rs (n_end n - (1 # 1000)))) in *.
  set (ne := Qmaxb 0 (Qminb re (999999 - (1 # 1000)))) in *.
  destruct (Qabsb_abs (rs - qs_)) as [A1 [A2 _]]. destruct (Qabsb_abs (re - qe_)) as [A3 [A4 _]].
  assert (N : (0 <= ns)%Q /\ (ns < n_end n)%Q /\ (n_start n - w - (1 # 200) <= ns)%Q /\ (ns <= n_start n + w + (1 # 200))%Q).
  { subst ns. destruct (Qminb_spec rs (n_end n - (1 # 1000))) as [[? ->]|[? ->]];
    match goal with |- context [Qmaxb 0 ?y] => destruct (Qmaxb_spec 0 y) as [[? ->]|[? ->]] end;
    repeat split; lra. }
  destruct N as [N1 [N2 [N3 N4]]].
  assert (M : (ne <= n_end n + 2 * w + (1 # 200))%Q).
  { subst ne. destruct (Qminb_spec re (999999 - (1 # 1000))) as [[? ->]|[? ->]];
    match goal with |- context [Qmaxb 0 ?y] => destruct (Qmaxb_spec 0 y) as [[? ->]|[? ->]] end; lra. }
  clearbody ns ne.
  qcase (Qltb ne (n_end n)).
  - rewrite set_start_eq in * by (rewrite ?R2; auto). cbn [run] in *.
    rewrite set_end_eq in * by (cbn [with_start n_start]; lra).
    eexists; split; [reflexivity|]. cbn [with_start with_end n_start n_end n_qs n_qe snd] in *.
    split; [auto|]. split; [auto|].
    split; [destruct (Qabsb_abs (ns - n_start n)) as [_ [_ [K|K]]]; rewrite K; lra|].
    split; [match goal with |- (Qabsb ?y <= _)%Q => destruct (Qabsb_abs y) as [_ [_ [K|K]]]; rewrite K; lra end|exact ID].
  - rewrite set_end_eq in * by (rewrite ?R1; lra). cbn [run] in *.
    rewrite set_start_eq in * by (cbn [with_end n_end]; lra).
    eexists; split; [reflexivity|]. cbn [with_start with_end n_start n_end n_qs n_qe snd] in *.
    split; [auto|]. split; [auto|].
    split; [destruct (Qabsb_abs (ns - n_start n)) as [_ [_ [K|K]]]; rewrite K; lra|].
    split; [match goal with |- (Qabsb ?y <= _)%Q => destruct (Qabsb_abs y) as [_ [_ [K|K]]]; rewrite K; lra end|exact ID].
Qed.
Lemma quantize_min_step m : (n_qs n < 0)%Q -> (n_qe n < 0)%Q ->
  (fs < m -> n_quantize_in_place n sps amount (Some m) = (Err ValueError, n)) /\
  (m <= fs -> exists n', n_quantize_in_place n sps amount (Some m) = (Ok tt, n') /\
     (n_qs n' == inject_Z (fs - m))%Q /\ (n_qe n' == inject_Z (ce - m))%Q /\ same_identity n' n).
Proof.
  intros Q1 Q2.
  pose proof fs_nonneg as F0. pose proof fs_ce as FC. pose proof sps_pos as SP.
  pose proof (proj1 (quantize_keeps n sps amount (Some m))) as ID.
  unfold n_quantize_in_place in *. rewrite qstep_s, qstep_e in *.
  replace (if (sps =? 1) && (fs =? ce) then ce + 1 else ce) with ce in *
    by (destruct (Z.eqb_spec fs ce); [lia|rewrite andb_false_r; reflexivity]).
  cbv zeta in *.
  assert (NQ : n_is_quantized n = false).
  { unfold n_is_quantized. rewrite (Qle_bool_ff 0 (n_qs n)) by lra. reflexivity. }
  rewrite NQ in *.
  assert (M0 : forall t, (0 <= t)%Q -> (inject_Z (Qfloor (Qmaxb 0 (- t) * inject_Z sps)) == 0)%Q).
  { intros t Ht. assert (M : (Qmaxb 0 (- t) == 0)%Q) by (destruct (Qmaxb_max 0 (- t)) as [M1 [M2 [M3|M3]]]; lra).
    rewrite M. setoid_replace (0 * inject_Z sps)%Q with 0%Q by ring. reflexivity. }
  pose proof (M0 (n_start n) Hs) as M1.
  assert (M2 : (inject_Z (Qfloor (Qmaxb 0 (- n_end n) * inject_Z sps)) == 0)%Q) by (apply M0; lra).
  split; intro Hm.
  - assert (L : (inject_Z (fs - m) < 0)%Q) by (change 0%Q with (inject_Z 0); apply inject_Z_lt; lia).
    assert (L2 : (Qmaxb (n_qs n) (inject_Z (fs - m)) < 0)%Q) by (destruct (Qmaxb_max (n_qs n) (inject_Z (fs - m))) as [_ [_ [K|K]]]; lra).
    unfold n_set_qs at 1. rewrite (proj2 (Qltb_lt _ _)) by lra. reflexivity.
  - assert (L : (0 <= inject_Z (fs - m))%Q) by (change 0%Q with (inject_Z 0); apply inject_Z_le; lia).
    assert (L2 : (inject_Z (fs - m) < inject_Z (ce - m))%Q) by (apply inject_Z_lt; lia).
    assert (S2 : (Qmaxb (n_qs n) (inject_Z (fs - m)) == inject_Z (fs - m))%Q) by (destruct (Qmaxb_max (n_qs n) (inject_Z (fs - m))) as [_ [K2 [K|K]]]; lra).
    assert (E2 : (Qmaxb (n_qe n) (inject_Z (ce - m)) == inject_Z (ce - m))%Q) by (destruct (Qmaxb_max (n_qe n) (inject_Z (ce - m))) as [_ [K2 [K|K]]]; lra).
    set (s2 := Qmaxb (n_qs n) (inject_Z (fs - m))) in *. set (e2 := Qmaxb (n_qe n) (inject_Z (ce - m))) in *. clearbody s2 e2.
    rewrite set_qs_eq in * by lra. cbn [run] in *. rewrite set_qe_eq in * by lra. cbn [run] in *.
    cbn [with_qs with_qe n_start n_end n_qs n_qe] in *.
    rewrite !Qltb_false in * by lra. rewrite Qle_bool_ff in * by lra.
    set (rs := around2 (s2 / inject_Z sps)) in *. set (re := around2 (e2 / inject_Z sps)) in *. clearbody rs re.
    set (ns := Qmaxb 0 (Qminb rs (n_end n - (1 # 1000)))) in *.
    set (ne := Qmaxb 0 (Qminb re (999999 - (1 # 1000)))) in *.
    assert (N : (0 <= ns)%Q /\ (ns < n_end n)%Q).
    { subst ns. destruct (Qminb_spec rs (n_end n - (1 # 1000))) as [[? ->]|[? ->]];
      match goal with |- context [Qmaxb 0 ?y] => destruct (Qmaxb_spec 0 y) as [[? ->]|[? ->]] end;
      split; lra. }
    destruct N as [N1 N2]. clearbody ns ne.
    match type of ID with context [Qltb ne ?x] => destruct (Qltb ne x) eqn:B end.
    + rewrite set_start_eq in * by auto. cbn [run] in *.
      rewrite set_end_eq in * by (cbn [with_start with_qs with_qe n_start n_end]; lra).
      eexists; split; [reflexivity|]. cbn [with_start with_end with_qs with_qe n_start n_end n_qs n_qe snd] in *.
      split; [lra|]. split; [lra|exact ID].
    + apply Qltb_ge in B.
      rewrite set_end_eq in * by (cbn [with_start with_qs with_qe n_start n_end]; lra). cbn [run] in *.
      rewrite set_start_eq in * by (cbn [with_end with_qs with_qe n_start n_end]; lra).
      eexists; split; [reflexivity|]. cbn [with_start with_end with_qs with_qe n_start n_end n_qs n_qe snd] in *.
      split; [lra|]. split; [lra|exact ID].
Qed.
End QuantSuccess.

(** ** C15, general: any history without shift/stretch keeps start < end *)
Lemma step_keeps_valid : forall n o, not_shift o -> (n_start n < n_end n)%Q ->
  (n_start (snd (n_step n o)) < n_end (snd (n_step n o)))%Q.
Proof.
  intros n o F H; destruct o; simpl in *; try contradiction.
  - apply set_start_keeps; auto.
  - apply set_end_keeps; auto.
  - unfold n_set_qs. destruct (Qltb v 0); auto.
  - unfold n_set_qe. destruct (Qltb v 0); auto.
  - unfold n_set_pitch. destruct ((0 <=? v) && (v <=? 127)); auto.
  - unfold n_set_program. destruct ((0 <=? v) && (v <=? 255)); auto.
  - apply quantize_keeps; auto.
Qed.
Lemma run_keeps_valid : forall a n ops, n_new a = Ok n -> Forall not_shift ops ->
  (n_start (n_run n ops) < n_end (n_run n ops))%Q.
Proof.
  intros a n ops H. apply n_new_ranges in H as [_ H]. revert n H.
  induction ops as [|o ops IH]; intros n H F; simpl; auto. inversion F; subst.
  apply IH; auto. apply step_keeps_valid; auto.
Qed.

(** ** ranges are an invariant *)
Lemma same_identity_ranges : forall a b, same_identity a b -> in_ranges b -> in_ranges a /\ n_den a = n_den b.
Proof. unfold same_identity, in_ranges. intros a b H R. intuition congruence. Qed.
Lemma step_ranges : forall n o, in_ranges n -> in_ranges (snd (n_step n o)) /\ n_den (snd (n_step n o)) = n_den n.
Proof.
  intros n o R; destruct o; simpl.
  - apply same_identity_ranges; auto. apply set_start_id.
  - apply same_identity_ranges; auto. apply set_end_id.
  - unfold n_set_qs; destruct (Qltb v 0); auto.
  - unfold n_set_qe; destruct (Qltb v 0); auto.
  - unfold n_set_pitch. destruct (Z.leb_spec 0 v), (Z.leb_spec v 127); simpl; auto.
    unfold in_ranges in *; simpl; intuition.
  - unfold n_set_program. destruct (Z.leb_spec 0 v), (Z.leb_spec v 255); simpl; auto.
    unfold in_ranges in *; simpl; intuition.
  - apply same_identity_ranges; auto. apply quantize_keeps.
  - auto.
  - auto.
Qed.
Lemma run_ranges : forall ops n, in_ranges n -> in_ranges (n_run n ops) /\ n_den (n_run n ops) = n_den n.
Proof.
  induction ops as [|o ops IH]; intros n R; simpl; auto.
  destruct (step_ranges n o R) as [R1 R2]. destruct (IH _ R1) as [R3 R4]. split; auto.
  unfold n_run in *; simpl in *. congruence.
Qed.

(** ** C20 *)
Lemma copy_reachable : forall a n ops, n_new a = Ok n ->
  (n_den a <= 128 -> (n_start (n_run n ops) < n_end (n_run n ops))%Q -> n_make_copy (n_run n ops) = Ok (n_run n ops)) /\
  (n_den a > 128 \/ (n_end (n_run n ops) <= n_start (n_run n ops))%Q -> n_make_copy (n_run n ops) = Err AssertionError).
Proof.
  intros a n ops H. pose proof (proj2 (n_new_ok a) (ex_intro _ n H)) as [_ [_ P]].
  destruct (n_new_ranges a n H) as [R _]. pose proof (n_new_fields a n H) as F.
  destruct F as [_ [_ [_ [_ [_ [F _]]]]]].
  destruct (run_ranges ops n R) as [R1 R2]. split.
  - intros D S. unfold n_make_copy. apply n_new_id; auto. rewrite R2.
    destruct P as [k [K P]]. assert (0 < 2 ^ k) by (apply Z.pow_pos_nonneg; lia).
    rewrite (nearest_unique 1 255 (n_den a) (n_den n) F) by lia. exists k; auto.
  - intros D. apply n_new_err. unfold accepts. intros [A1 [_ A3]].
    destruct D as [D|D]; [|lra]. rewrite R2 in A3.
    assert (E : n_den n = 255).
    { destruct P as [k [K P]]. assert (8 <= k).
      { destruct (Z_lt_le_dec k 8); auto. assert (2 ^ k <= 2 ^ 7) by (apply Z.pow_le_mono_r; lia).
        change (2 ^ 7) with 128 in *. lia. }
      assert (256 <= n_den a) by (rewrite P; change 256 with (2 ^ 8); apply Z.pow_le_mono_r; lia).
      destruct F as [F1 F2]. specialize (F2 255). lia. }
    rewrite E in A3. apply land_pow2 in A3; [|lia]. vm_compute in A3. discriminate.
Qed.

(** ** C21 *)
Lemma shift_facts : forall n d,
  let m := n_shift (n_shift n d) (- d) in
  (n_start m == n_start n)%Q /\ (n_end m == n_end n)%Q /\ same_identity m n /\ n_qs m = n_qs n /\ n_qe m = n_qe n /\
  (n_start (n_shift n d) == n_start n + d)%Q /\ (n_duration (n_shift n d) == n_duration n)%Q.
Proof.
  intros n d m. subst m. unfold n_duration, n_shift, same_identity; simpl.
  split; [ring|]. split; [ring|]. split; [tauto|]. split; auto. split; auto. split; [reflexivity|ring].
Qed.
Lemma stretch_facts : forall n k, (n_start n < n_end n)%Q ->
  (n_duration (n_stretch n k) == k * n_duration n)%Q /\
  ((n_start (n_stretch n k) < n_end (n_stretch n k))%Q <-> (0 < k)%Q) /\
  same_identity (n_stretch n k) n /\ n_qs (n_stretch n k) = n_qs n /\ n_qe (n_stretch n k) = n_qe n.
Proof.
  intros n k H. unfold n_duration, n_stretch, same_identity; simpl.
  split; [ring|]. split; [|tauto]. split; intro; nra.
Qed.
