(** Property C212: shifting and stretching a sequence in double precision. *)
From Coq Require Import QArith Qabs Qpower Lqa Lia ZArith List.
From Verif Require Import PyBase M_Note M_Events M_Seq M_Float M_ShiftF S_Note S_Seq S_Rounding S_ShiftF L_Base L_Note L_Note2 L_Seq L_Float L_Snap L_NoteF P_Rounding P_NoteF L_ShiftF.
Import ListNotations.
Open Scope Z_scope.
Open Scope list_scope.

(** C212: shift_times refuses a sequence whose notes are all quantised, in particular an empty one, and leaves it; otherwise every
    note keeps all but its times, and these are the exact ones up to the last of 53 bits; nothing else changes. *)
Theorem C212_shift : forall s d,
  ((forall n, In n (q_notes s) -> n_is_quantized n = true) -> q_shift_f s d = (Err ValueError, s)) /\
  ((exists n, In n (q_notes s) /\ n_is_quantized n = false) -> exists s', q_shift_f s d = (Ok tt, s') /\
     Forall2 (fun a b => retimed a b /\ rounded (n_start a + d) (n_start b) /\ rounded (n_end a + d) (n_end b)) (q_notes s) (q_notes s') /\
     q_instr s' = q_instr s /\ q_ccs s' = q_ccs s /\ q_bends s' = q_bends s /\ q_res s' = q_res s).
Proof.
  intros s d. split.
  - intros H. unfold q_shift_f, q_is_quantized. replace (forallb n_is_quantized (q_notes s)) with true; [reflexivity|].
    symmetry. apply forallb_forall. exact H.
  - intros [n [I N]]. unfold q_shift_f, q_is_quantized. destruct (forallb n_is_quantized (q_notes s)) eqn:E.
    + rewrite forallb_forall in E. rewrite (E n I) in N. discriminate.
    + eexists; split; [reflexivity|]. rewrite notes_set_total, notes_put. split.
      * apply map_F2. intros a _. unfold n_shift_f. split; [apply retimed_with|]. cbn [with_end with_start n_start n_end]. split; apply fl_rounded.
      * cbn [q_set_total q_instr q_ccs q_bends q_res]. unfold q_put. destruct (i_drum (q_instr s)); repeat split.
Qed.
Print Assumptions C212_shift.
(** C212: what started, or ended, no later than something else still does. *)
Theorem C212_shift_order : forall s d s', q_shift_f s d = (Ok tt, s') ->
  forall i j a b a' b', nth_error (q_notes s) i = Some a -> nth_error (q_notes s) j = Some b ->
  nth_error (q_notes s') i = Some a' -> nth_error (q_notes s') j = Some b' ->
  ((n_start a <= n_start b)%Q -> (n_start a' <= n_start b')%Q) /\ ((n_end a <= n_start b)%Q -> (n_end a' <= n_start b')%Q) /\
  ((n_start a <= n_end b)%Q -> (n_start a' <= n_end b')%Q) /\ ((n_end a <= n_end b)%Q -> (n_end a' <= n_end b')%Q).
Proof.
  intros s d s' H i j a b a' b' A B A' B'. unfold q_shift_f in H. destruct (q_is_quantized s); [discriminate|]. injection H as <-.
  rewrite notes_set_total, notes_put in A', B'. rewrite nth_error_map, A in A'. rewrite nth_error_map, B in B'. cbn [option_map] in A', B'.
  injection A' as <-. injection B' as <-. unfold n_shift_f. cbn [with_end with_start n_start n_end].
  repeat split; intros L; apply fl_mono; lra.
Qed.
Print Assumptions C212_shift_order.
(** C212: total_time stays exactly the end of the last note (0 if all end before 0). *)
Theorem C212_shift_total : forall s d s', q_shift_f s d = (Ok tt, s') -> latest_end (q_notes s) (q_total s) ->
  (exists n, In n (q_notes s) /\ (0 < n_end n)%Q) -> latest_end (q_notes s') (q_total s').
Proof.
  intros s d s' H L P. unfold q_shift_f in H. destruct (q_is_quantized s); [discriminate|]. injection H as <-.
  rewrite notes_set_total, notes_put. cbn [q_set_total q_total]. rewrite total_put. apply shift_latest; auto.
Qed.
Print Assumptions C212_shift_total.
(** C212: notes stay notes if they are longer than the last bits of the new times; in particular every note of a microsecond that is shifted
    to within the first 2^31 seconds. *)
Theorem C212_shift_valid : forall s d s', q_shift_f s d = (Ok tt, s') ->
  (forall n, In n (q_notes s) -> (Qabs (n_start n + d) + Qabs (n_end n + d) < inject_Z (2 ^ 53) * (n_end n - n_start n))%Q) ->
  forall n', In n' (q_notes s') -> (n_start n' < n_end n')%Q.
Proof.
  intros s d s' H V n' I. unfold q_shift_f in H. destruct (q_is_quantized s); [discriminate|]. injection H as <-.
  rewrite notes_set_total, notes_put in I. apply in_map_iff in I as [n [<- I]]. unfold n_shift_f. cbn [with_end with_start n_start n_end].
  apply (rounded_gap (n_start n + d) (n_end n + d)); [apply fl_rounded|apply fl_rounded|].
  setoid_replace (n_end n + d - (n_start n + d))%Q with (n_end n - n_start n)%Q by ring. apply V; auto.
Qed.
Print Assumptions C212_shift_valid.
(** C212: the practical case. *)
Theorem C212_shift_practical : forall s d s', q_shift_f s d = (Ok tt, s') ->
  (forall n, In n (q_notes s) -> (0 <= n_start n + d)%Q /\ (n_end n + d <= inject_Z (2 ^ 31))%Q /\ ((1 # 1000000) <= n_end n - n_start n)%Q) ->
  forall n', In n' (q_notes s') -> (n_start n' < n_end n')%Q.
Proof.
  intros s d s' H V. apply (C212_shift_valid s d s' H). intros n I. destruct (V n I) as [A [B C]]. rewrite !Qabs_pos by lra.
  change (inject_Z (2 ^ 31)) with 2147483648%Q in B. change (inject_Z (2 ^ 53)) with 9007199254740992%Q. lra.
Qed.
Print Assumptions C212_shift_practical.
(** C212: where the new times have 53 bits nothing is rounded, and shifting back restores the times. *)
Theorem C212_shift_exact : forall s d s', q_shift_f s d = (Ok tt, s') ->
  (forall n, In n (q_notes s) -> bits53 (n_start n + d) /\ bits53 (n_end n + d)) ->
  Forall2 (affine_note 1 d) (q_notes s) (q_notes s') /\
  ((forall n, In n (q_notes s) -> bits53 (n_start n) /\ bits53 (n_end n)) -> exists s'', q_shift_f s' (- d) = (Ok tt, s'') /\
     Forall2 (affine_note 1 0) (q_notes s) (q_notes s'')).
Proof.
  intros s d s' H B. pose proof H as H0. unfold q_shift_f in H. destruct (q_is_quantized s) eqn:E; [discriminate|].
  assert (H' : s' = q_set_total (q_put s (map (fun n => n_shift_f n d) (q_notes s))) (fl (q_total (q_put s (map (fun n => n_shift_f n d) (q_notes s))) + d))) by (injection H; auto). clear H.
  assert (NS : q_notes s' = map (fun n => n_shift_f n d) (q_notes s)) by (rewrite H', notes_set_total, notes_put; reflexivity).
  assert (SI : forall n d', same_identity (n_shift_f n d') n /\ n_qs (n_shift_f n d') = n_qs n /\ n_qe (n_shift_f n d') = n_qe n).
  { intros [] d'. unfold same_identity. cbn. repeat split. }
  split.
  - rewrite NS. apply map_F2. intros n I. destruct (B n I) as [B1 B2]. unfold affine_note. destruct (SI n d) as [X [Y Z0]]. split; [|split; [|split; [exact X|split; assumption]]].
    + unfold n_shift_f. cbn [with_end with_start n_start]. rewrite fl_bits by auto. ring.
    + unfold n_shift_f. cbn [with_end with_start n_end]. rewrite fl_bits by auto. ring.
  - intros B0. unfold q_shift_f. replace (q_is_quantized s') with false.
    + eexists; split; [reflexivity|]. rewrite notes_set_total, notes_put, NS, map_map. apply map_F2. intros n I.
      destruct (B n I) as [B1 B2]. destruct (B0 n I) as [B3 B4]. unfold affine_note. destruct (SI n d) as [X [Y Z0]]. destruct (SI (n_shift_f n d) (- d)%Q) as [X' [Y' Z']].
      split; [|split; [|split; [|split]]].
      * assert (R : (n_start (n_shift_f n d) + - d == n_start n)%Q) by (unfold n_shift_f; cbn [with_end with_start n_start]; rewrite fl_bits by auto; ring).
        change (n_start (n_shift_f (n_shift_f n d) (- d))) with (fl (n_start (n_shift_f n d) + - d)). rewrite (fl_m _ _ R), fl_bits by auto. ring.
      * assert (R : (n_end (n_shift_f n d) + - d == n_end n)%Q) by (unfold n_shift_f; cbn [with_end with_start n_end]; rewrite fl_bits by auto; ring).
        change (n_end (n_shift_f (n_shift_f n d) (- d))) with (fl (n_end (n_shift_f n d) + - d)). rewrite (fl_m _ _ R), fl_bits by auto. ring.
      * eapply same_identity_trans; eauto.
      * rewrite Y'. exact Y.
      * rewrite Z'. exact Z0.
    + symmetry. rewrite <- E. unfold q_is_quantized. rewrite NS. clear - SI. induction (q_notes s) as [|n l IH]; [reflexivity|]. cbn [map forallb]. rewrite IH.
      reflexivity.
Qed.
Print Assumptions C212_shift_exact.
Definition s212 (l : list note) : seq := q_new l (M_Events.mkI 1 "Piano" false) 220.
(** A note from 0.1 to 0.3 shifted by 0.2 and back starts later than before; one of one unit in the last place shifted by one second has no
    length any more, and can not be copied. *)
Example C212_case_back : exists s1 s2 n, q_shift_f (s212 [mk0 60 (fl (1#10)) (fl (3#10))]) (fl (2#10)) = (Ok tt, s1) /\
  q_shift_f s1 (- fl (2#10)) = (Ok tt, s2) /\ q_notes s2 = [n] /\ (fl (1#10) < n_start n)%Q.
Proof. do 3 eexists. split; [vm_compute; reflexivity|]. split; [vm_compute; reflexivity|]. split; [reflexivity|]. vm_compute. reflexivity. Qed.
Example C212_case_collapse : exists s1 n, q_shift_f (s212 [mk0 60 0 (1 # 2 ^ 60)]) 1 = (Ok tt, s1) /\ q_notes s1 = [n] /\ n_make_copy n = Err AssertionError /\
  (q_total s1 == 1)%Q.
Proof. do 2 eexists. split; [vm_compute; reflexivity|]. split; [reflexivity|]. split; [vm_compute; reflexivity|]. vm_compute. reflexivity. Qed.
(** Half a second is exact. *)
Example C212_case_exact : exists s1, q_shift_f (s212 [mk0 60 1 (3#2); mk0 64 2 3]) (1#2) = (Ok tt, s1) /\
  (forall n, In n (q_notes (s212 [mk0 60 1 (3#2); mk0 64 2 3])) -> bits53 (n_start n + (1#2)) /\ bits53 (n_end n + (1#2))) /\ latest_end (q_notes s1) (q_total s1).
Proof.
  eexists. split; [vm_compute; reflexivity|]. split.
  - cbn [s212 q_new q_notes q_instr i_drum q_pitched]. intros n [<- | [<- | []]]; cbn [mk0 n_start n_end]; split.
    + exists 3, (-1). split; [lia|reflexivity].
    + exists 2, 0. split; [lia|reflexivity].
    + exists 5, (-1). split; [lia|reflexivity].
    + exists 7, (-1). split; [lia|reflexivity].
  - unfold latest_end. cbn [q_notes q_instr i_drum q_pitched q_total]. split; [intros n [<- | [<- | []]]; vm_compute; discriminate|]. split; [vm_compute; discriminate|].
    right. eexists. split; [right; left; reflexivity|]. vm_compute. reflexivity.
Qed.

(** C212: stretch by any amount: every note keeps all but its times, which are the exact ones up to the last bit, and total_time is the end of the
    last note. *)
Theorem C212_stretch : forall s k, let s' := q_stretch_f s k in
  Forall2 (fun a b => retimed a b /\ rounded (n_start a * k) (n_start b) /\ rounded (n_end a * k) (n_end b)) (q_notes s) (q_notes s') /\
  latest_end (q_notes s') (q_total s') /\ q_instr s' = q_instr s /\ q_ccs s' = q_ccs s /\ q_bends s' = q_bends s /\ q_res s' = q_res s.
Proof.
  intros s k s'. subst s'. unfold q_stretch_f. split; [|split].
  - unfold q_adjust. rewrite notes_set_total, notes_put. apply map_F2. intros a _. unfold n_stretch_f. split; [apply retimed_with|]. cbn [with_end with_start n_start n_end]. split; apply fl_rounded.
  - unfold q_adjust. rewrite notes_set_total. cbn [q_total q_set_total]. apply max_end_latest.
  - unfold q_adjust. cbn [q_set_total q_instr q_ccs q_bends q_res]. unfold q_put. destruct (i_drum (q_instr s)); repeat split.
Qed.
Print Assumptions C212_stretch.
(** C212: by an amount that is not negative, what was no later stays no later; by a positive one a note that starts at 0 or later and is longer than the last bits of its
    times stays a note. *)
Theorem C212_stretch_order : forall s k, (0 <= k)%Q -> let s' := q_stretch_f s k in
  (forall i j a b a' b', nth_error (q_notes s) i = Some a -> nth_error (q_notes s) j = Some b ->
   nth_error (q_notes s') i = Some a' -> nth_error (q_notes s') j = Some b' ->
   ((n_start a <= n_start b)%Q -> (n_start a' <= n_start b')%Q) /\ ((n_end a <= n_start b)%Q -> (n_end a' <= n_start b')%Q) /\
   ((n_start a <= n_end b)%Q -> (n_start a' <= n_end b')%Q) /\ ((n_end a <= n_end b)%Q -> (n_end a' <= n_end b')%Q)) /\
  ((0 < k)%Q -> forall i a a', nth_error (q_notes s) i = Some a -> nth_error (q_notes s') i = Some a' ->
   (0 <= n_start a)%Q -> (n_start a + n_end a < inject_Z (2 ^ 53) * (n_end a - n_start a))%Q -> (n_start a' < n_end a')%Q).
Proof.
  intros s k K s'. subst s'. unfold q_stretch_f, q_adjust. rewrite notes_set_total, notes_put. split.
  - intros i j a b a' b' A B A' B'. rewrite nth_error_map, A in A'. rewrite nth_error_map, B in B'. cbn [option_map] in A', B'.
    injection A' as <-. injection B' as <-. unfold n_stretch_f. cbn [with_end with_start n_start n_end].
    repeat split; intros L; apply fl_mono; apply Qmul_pos_le; auto.
  - intros K0 i a a' A A' S0 G. rewrite nth_error_map, A in A'. cbn [option_map] in A'. injection A' as <-. unfold n_stretch_f. cbn [with_end with_start n_start n_end].
    apply (rounded_gap (n_start a * k) (n_end a * k)); [apply fl_rounded|apply fl_rounded|].
    assert (E0 : (0 <= n_end a)%Q). { destruct (Qlt_le_dec (n_end a) 0) as [N|N]; [|exact N]. change (inject_Z (2 ^ 53)) with 9007199254740992%Q in G. lra. }
    rewrite !Qabs_pos by (apply Qmult_le_0_compat; auto).
    setoid_replace (n_start a * k + n_end a * k)%Q with ((n_start a + n_end a) * k)%Q by ring.
    setoid_replace (inject_Z (2 ^ 53) * (n_end a * k - n_start a * k))%Q with ((inject_Z (2 ^ 53) * (n_end a - n_start a)) * k)%Q by ring.
    apply Qmult_lt_compat_r; auto.
Qed.
Print Assumptions C212_stretch_order.
(** C212: stretching by a power of two is exact, and the inverse restores the times. *)
Theorem C212_stretch_exact : forall s j, (forall n, In n (q_notes s) -> bits53 (n_start n) /\ bits53 (n_end n)) ->
  Forall2 (affine_note (2 ^ j) 0) (q_notes s) (q_notes (q_stretch_f s (2 ^ j))) /\
  Forall2 (affine_note 1 0) (q_notes s) (q_notes (q_stretch_f (q_stretch_f s (2 ^ j)) (2 ^ (- j)))).
Proof.
  intros s j B.
  assert (BB : forall x, bits53 x -> bits53 (x * 2 ^ j)).
  { intros x [n [e [N E]]]. exists n, (e + j). split; [exact N|]. rewrite E. rewrite (Qpower_plus 2 e j) by discriminate. ring. }
  assert (PI : (2 ^ j * 2 ^ (- j) == 1)%Q) by (rewrite <- (Qpower_plus 2) by discriminate; replace (j + - j) with 0 by lia; reflexivity).
  assert (SI : forall n k, same_identity (n_stretch_f n k) n /\ n_qs (n_stretch_f n k) = n_qs n /\ n_qe (n_stretch_f n k) = n_qe n).
  { intros [] k. unfold same_identity. cbn. repeat split. }
  assert (NS : forall s k, q_notes (q_stretch_f s k) = map (fun n => n_stretch_f n k) (q_notes s)) by (intros; unfold q_stretch_f, q_adjust; rewrite notes_set_total, notes_put; reflexivity).
  split; rewrite !NS.
  - apply map_F2. intros n I. destruct (B n I) as [B1 B2]. destruct (SI n (2 ^ j)%Q) as [X [Y Z0]]. unfold affine_note. split; [|split; [|split; [exact X|split; assumption]]].
    + change (n_start (n_stretch_f n (2 ^ j))) with (fl (n_start n * 2 ^ j)). rewrite fl_bits by auto. ring.
    + change (n_end (n_stretch_f n (2 ^ j))) with (fl (n_end n * 2 ^ j)). rewrite fl_bits by auto. ring.
  - rewrite map_map. apply map_F2. intros n I. destruct (B n I) as [B1 B2]. destruct (SI n (2 ^ j)%Q) as [X [Y Z0]]. destruct (SI (n_stretch_f n (2 ^ j)) (2 ^ (- j))%Q) as [X' [Y' Z']].
    unfold affine_note. split; [|split; [|split; [eapply same_identity_trans; eauto|split; [rewrite Y'; exact Y|rewrite Z'; exact Z0]]]].
    + change (n_start (n_stretch_f (n_stretch_f n (2 ^ j)) (2 ^ (- j)))) with (fl (fl (n_start n * 2 ^ j) * 2 ^ (- j))).
      assert (R : (fl (n_start n * 2 ^ j) * 2 ^ (- j) == n_start n)%Q).
      { rewrite fl_bits by auto. setoid_replace (n_start n * 2 ^ j * 2 ^ (- j))%Q with (n_start n * (2 ^ j * 2 ^ (- j)))%Q by ring. rewrite PI. ring. }
      rewrite (fl_m _ _ R), fl_bits by auto. ring.
    + change (n_end (n_stretch_f (n_stretch_f n (2 ^ j)) (2 ^ (- j)))) with (fl (fl (n_end n * 2 ^ j) * 2 ^ (- j))).
      assert (R : (fl (n_end n * 2 ^ j) * 2 ^ (- j) == n_end n)%Q).
      { rewrite fl_bits by auto. setoid_replace (n_end n * 2 ^ j * 2 ^ (- j))%Q with (n_end n * (2 ^ j * 2 ^ (- j)))%Q by ring. rewrite PI. ring. }
      rewrite (fl_m _ _ R), fl_bits by auto. ring.
Qed.
Print Assumptions C212_stretch_exact.
(** A third is not exact: 0.3 seconds stretched by the double nearest to 1/3 and then by 3 start before 0.3; one note from 1 to 1.5 doubled. *)
Example C212_case_stretch : exists n, q_notes (q_stretch_f (q_stretch_f (s212 [mk0 60 (fl (7#10)) 2]) (fl (1#49))) 49) = [n] /\ ~ (n_start n == fl (7#10))%Q.
Proof. eexists. split; [vm_compute; reflexivity|]. vm_compute. discriminate. Qed.
Example C212_case_double : exists n, q_notes (q_stretch_f (s212 [mk0 60 1 (3#2)]) 2) = [n] /\ (n_start n == 2)%Q /\ (n_end n == 3)%Q /\
  (q_total (q_stretch_f (s212 [mk0 60 1 (3#2)]) 2) == 3)%Q.
Proof. eexists. split; [vm_compute; reflexivity|]. split; [reflexivity|]. split; [reflexivity|]. vm_compute. reflexivity. Qed.
