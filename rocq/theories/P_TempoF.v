(** Property C218: tempo conversions in double precision. *)
From Coq Require Import QArith Qabs Qround Lia Lqa.
From Verif Require Import PyBase L_Base M_Note L_Note M_Events M_Float L_Float L_Float2 L_NoteF L_NoteF2 L_UtilsF L_UtilsF2 L_UtilsF3 S_TempoF M_TempoF L_TempoF.
Open Scope Q_scope.

(** C218: tempo_to_qpm is off 60000000 / us by at most two parts in 2^51 and raises for 0 only; the
    whole number of microseconds comes back exactly from the quarters per minute by rounding, so
    different tempi have different qpm, a slower tempo the smaller one; and the whole part of the
    qpm is that of the exact quotient, at least up to 46838 quarters a minute. *)
Theorem C218_tempo_to_qpm :
  tempo_to_qpm_f 0 = Err ZeroDivisionError /\
  (forall us, 0 < us -> exists q, tempo_to_qpm_f us = Ok q /\ 0 < q /\ parts 2 q (60000000 / us)) /\
  (forall us q, (1 <= us <= 2 ^ 48)%Z -> tempo_to_qpm_f (inject_Z us) = Ok q -> round_half_even (fl (60000000 / q)) = us) /\
  (forall us us' q q', (1 <= us < us')%Z -> (us' <= 2 ^ 48)%Z -> tempo_to_qpm_f (inject_Z us) = Ok q -> tempo_to_qpm_f (inject_Z us') = Ok q' -> q' < q) /\
  (forall us q, (1280 < us)%Z -> tempo_to_qpm_f (inject_Z us) = Ok q -> Qfloor q = (60000000 / us)%Z).
Proof.
  split; [reflexivity|]. split; [|split; [exact tempo_back|split; [|exact whole_part]]].
  - intros us U. destruct (tempo_near us U) as (q & E & N & Q0). exists q. split; auto. split; auto. apply (near_parts 2); [auto|cbv; discriminate].
  - intros us us' q q' U U' H H'. assert (L : q' <= q). { apply (tempo_anti (inject_Z us) (inject_Z us') q q'); auto; [unfold Qlt; cbn; lia|rewrite <- Zle_Qle; lia]. }
    destruct (Qlt_le_dec q' q) as [|G]; auto. exfalso. assert (E : q' == q) by lra.
    pose proof (tempo_back us q ltac:(lia) H) as B. pose proof (tempo_back us' q' ltac:(lia) H') as B'.
    assert (Q0 : 0 < q). { destruct (tempo_near (inject_Z us)) as (q2 & E2 & _ & Q2); [unfold Qlt; cbn; lia|]. rewrite E2 in H. injection H as <-. auto. }
    assert (X : fl (60000000 / q') = fl (60000000 / q)) by (apply fl_m0; [apply Qle_shift_div_l; lra|rewrite E; reflexivity]). rewrite X in B'. lia.
Qed.
Print Assumptions C218_tempo_to_qpm.
(** At 1280 microseconds the quotient is 46875, the double just below it. *)
Example C218_whole_case : (exists q, tempo_to_qpm_f 1280 = Ok q /\ Qfloor q = 46874%Z) /\ (60000000 / 1280 = 46875)%Z /\
  (exists q, tempo_to_qpm_f 500000 = Ok q /\ q == 120).
Proof. split; [|split; [reflexivity|]]; eexists; split; vm_compute; reflexivity. Qed.

(** C218: for every tempo signature of the constructor the tick and the quarter last as long as the
    tempo says up to three and four parts in 2^51; bpm is exactly a quarter of the qpm, and setting
    bpm then reading it returns the value set. *)
Theorem C218_signature : forall time qpm resolution t, tempo_new time qpm resolution = Ok t ->
  parts 3 (seconds_per_tick_f t) (60 / (qpm * inject_Z resolution)) /\
  parts 4 (seconds_per_quarter_f t) (60 / qpm) /\
  (pos_double qpm -> t_bpm_f t * 4 == qpm) /\
  (forall v, pos_double v -> t_bpm_f (t_set_bpm_f t v) == v /\ t_qpm (t_set_bpm_f t v) == 4 * v).
Proof.
  intros time qpm resolution t H. unfold tempo_new in H. destruct (Qle_bool qpm 0) eqn:E1; [discriminate|]. destruct (resolution <=? 0)%Z eqn:E2; [discriminate|]. injection H as <-.
  apply Z.leb_gt in E2. assert (Q0 : 0 < qpm) by (apply Qle_bool_false; auto). set (t := mkT time qpm resolution 0).
  split; [apply (near_parts 3); [apply (spt_near t); auto|cbv; discriminate]|]. split; [apply (near_parts 4); [apply (spq_near t); auto|cbv; discriminate]|].
  split; [intro V; apply (bpm_four t); auto|]. intros v V. destruct (bpm_back t v V). auto.
Qed.
Print Assumptions C218_signature.
Example C218_signature_case : exists t, tempo_new 0 120 480 = Ok t /\ pos_double 120 /\ seconds_per_quarter_f t == 1 # 2 /\ ~ seconds_per_tick_f t == 1 # 960.
Proof. eexists. split; [reflexivity|]. split; [split; vm_compute; reflexivity|]. split; [vm_compute; reflexivity|]. intro H. vm_compute in H. discriminate. Qed.

(** C218: ppq_to_qpm ignores the tempo in doubles too, up to four parts in 2^51. *)
Theorem C218_ppq : forall ppq us ticks, 0 < ppq -> 0 < us -> 0 < ticks -> exists q, ppq_to_qpm_f ppq us ticks = Ok q /\ parts 4 q (60 / ppq).
Proof. intros ppq us ticks P U T. destruct (ppq_near ppq us ticks P U T) as (q & E & N). exists q. split; auto. apply (near_parts 4); [auto|cbv; discriminate]. Qed.
Print Assumptions C218_ppq.
Example C218_ppq_case : exists q, ppq_to_qpm_f 480 500000 4 = Ok q /\ Qabsb (q - (1 # 8)) < 1 # 1000000000000000.
Proof. eexists. split; vm_compute; reflexivity. Qed.

(** C218: the steps per second and the bpm conversions, up to three parts in 2^51; with whole
    arguments that divide, steps per second are exact; multiplying by a note value that is a power
    of two is exact; the rounded variant is off by 5e-11 more. *)
Theorem C218_steps :
  (forall bpm resolution, 0 <= bpm -> 0 <= resolution -> parts 2 (steps_per_second_from_bpm_f bpm resolution) (bpm * resolution / 60)) /\
  (forall a b k, (0 <= a)%Z -> (0 <= b)%Z -> (a * b = 60 * k)%Z -> (60 * k <= 2 ^ 53)%Z ->
     steps_per_second_from_bpm_f (inject_Z a) (inject_Z b) == inject_Z k /\ from_spq_to_sps_f (inject_Z a) (inject_Z b) == inject_Z k) /\
  (forall spq qpm, 0 <= spq -> 0 <= qpm -> parts 2 (from_spq_to_sps_f spq qpm) (spq * qpm / 60)) /\
  (forall spq bpm d, 0 <= spq -> 0 <= bpm -> 0 < d -> parts 3 (from_bpm_spq_to_sps_f spq bpm d) (spq * (bpm / d) / 60)) /\
  (forall bpm beats, 0 <= bpm -> 0 <= beats -> parts 2 (bpm_to_qpm_f bpm beats) (bpm * beats / 60)) /\
  (forall bpm d, 0 <= bpm -> 0 <= d -> parts 3 (qpm_to_bpm_f (bpm_to_qpm_f bpm d) d) (bpm * (d * d / 60))) /\
  (forall v k, pos_double v -> (0 <= k)%Z -> qpm_to_bpm_f v (inject_Z (2 ^ k)) == v * inject_Z (2 ^ k)) /\
  (forall bpm beats, 0 <= bpm -> 0 <= beats ->
     Qabsb (bpm_to_qpm_np_f bpm beats - bpm * beats / 60) <= (1 # 20000000000) + (bpm * beats / 60 + 1) * (4 # 2251799813685248)).
Proof.
  split; [intros; apply (near_parts 2); [apply sps_near; auto|cbv; discriminate]|].
  split; [intros a b k A B E L; split; apply sps_whole; auto|].
  split; [intros; apply (near_parts 2); [apply sps_near; auto|cbv; discriminate]|].
  split; [intros; apply (near_parts 3); [apply sps3_near; auto|cbv; discriminate]|].
  split; [intros; apply (near_parts 2); [apply bq_near; auto|cbv; discriminate]|].
  split; [|split; [intros; apply fl_mult_pow; auto|exact np_close]].
  intros bpm d A B. apply (near_parts 3); [|cbv; discriminate]. unfold qpm_to_bpm_f. apply near_fl'.
  eapply near_m; [reflexivity| |apply near_mul; [exact B|apply bq_near; auto]]. field.
Qed.
Print Assumptions C218_steps.
Example C218_steps_case : (120 * 480 = 60 * 960)%Z /\ steps_per_second_from_bpm_f 120 480 == 960 /\ bpm_to_qpm_f 100 1 == fl (100 # 60) /\ ~ bpm_to_qpm_np_f 100 1 == bpm_to_qpm_f 100 1.
Proof. repeat split; try (vm_compute; reflexivity). intro H. vm_compute in H. discriminate. Qed.

(** C218: the length of a measure is the exact one rounded once. *)
Theorem C218_measure : forall s k, 0 <= s_time s -> (0 < s_num s)%Z -> (0 <= k)%Z -> s_den s = (2 ^ k)%Z ->
  measure_length_f s == fl (measure_length s).
Proof.
  intros s k T N K D. unfold measure_length_f, measure_length. rewrite D. assert (N' : 0 < inject_Z (s_num s)) by (unfold Qlt; cbn; lia).
  destruct (Qlt_le_dec 0 (s_time s)) as [P|Z]; [apply fl_half; auto; apply Qmult_lt_0_compat; auto|].
  assert (E : s_time s * inject_Z (s_num s) == 0) by (assert (s_time s == 0) as -> by lra; ring). rewrite (fl_0 _ E). rewrite !fl_0; [reflexivity| |reflexivity]. rewrite E. reflexivity.
Qed.
Print Assumptions C218_measure.
Example C218_measure_case : exists s, tsig_new (5 # 2) 3 8 = Ok s /\ s_den s = (2 ^ 3)%Z /\ measure_length_f s == 15 # 16.
Proof. eexists. repeat split; vm_compute; reflexivity. Qed.

(** C218: a tempo signature of qpm 0 has ticks of no length. *)
Theorem C218_no_tempo : forall t, t_qpm t == 0 -> seconds_per_tick_f t = 0.
Proof.
  intros t N. unfold seconds_per_tick_f. destruct (Qeq_bool (t_qpm t) 0) eqn:E; [reflexivity|]. apply Qeq_bool_neq in E. contradiction.
Qed.
Print Assumptions C218_no_tempo.
(** C218: setting bpm keeps time, resolution and track of a tempo signature. *)
Theorem C218_setter : forall t v, t_time (t_set_bpm_f t v) = t_time t /\ t_resolution (t_set_bpm_f t v) = t_resolution t /\ t_seq (t_set_bpm_f t v) = t_seq t.
Proof. intros t v. repeat split; reflexivity. Qed.
Print Assumptions C218_setter.
Example C218_setter_case : bind (tempo_new 2 120 480) (fun t => Ok (t_time (t_set_bpm_f t 5), t_qpm (t_set_bpm_f t 5), seconds_per_tick_f (t_set_bpm_f t 0))) = Ok (2, 20, 0).
Proof. vm_compute. reflexivity. Qed.
