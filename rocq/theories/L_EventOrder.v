From Verif Require Import PyBase L_Base M_Events M_EventOrder S_EventOrder.
From Coq Require Import Lia Lqa Permutation Sorted.
Open Scope Z_scope.

Lemma absb_nonneg : forall a, (0 <= Qabsb a)%Q.
Proof. intros a. destruct (Qabsb_spec a) as [[? ->]|[? ->]]; lra. Qed.

Lemma close_near : forall a b, qclose_def a b = true <-> near a b.
Proof.
  intros a b. unfold qclose_def, qclose, near.
  assert (Pm : (0 <= Qmaxb (Qabsb a) (Qabsb b))%Q).
  { pose proof (absb_nonneg a). pose proof (absb_nonneg b). destruct (Qmaxb_spec (Qabsb a) (Qabsb b)) as [[? ->]|[? ->]]; lra. }
  set (M := Qmaxb (Qabsb a) (Qabsb b)) in *. set (D := Qabsb (a - b)). clearbody M D.
  assert (E : (Qmaxb ((1 # 1000000000) * M) 0 == (1 # 1000000000) * M)%Q).
  { destruct (Qmaxb_spec ((1 # 1000000000) * M) 0) as [[? ->]|[? ->]]; lra. }
  split.
  - intros H. apply Qle_bool_iff in H. lra.
  - intros H. apply Qle_bool_iff. lra.
Qed.

Lemma order_spec : forall ta sa tb sb,
  (if qclose_def ta tb then sa <? sb else Qltb ta tb) = true <-> precedes ta sa tb sb.
Proof.
  intros ta sa tb sb. unfold precedes. destruct (qclose_def ta tb) eqn:C.
  - apply close_near in C. rewrite Z.ltb_lt. tauto.
  - assert (N : ~ near ta tb) by (intros K; apply close_near in K; congruence).
    split; [intros H; right; split; auto; apply Qltb_lt; auto|intros [[K _]|[_ K]]; [tauto|apply Qltb_lt; auto]].
Qed.

Lemma near_refl : forall a, near a a.
Proof.
  intros a. apply close_near. unfold qclose_def, qclose. apply Qle_bool_iff.
  assert (A : (Qabsb (a - a) == 0)%Q) by (destruct (Qabsb_spec (a - a)) as [[? ->]|[? ->]]; lra).
  destruct (Qmaxb_spec ((1 # 1000000000) * Qmaxb (Qabsb a) (Qabsb a)) 0) as [[? ->]|[? ->]]; lra.
Qed.

Lemma near_sym : forall a b, near a b -> near b a.
Proof.
  intros a b. unfold near.
  destruct (Qabsb_spec (a - b)) as [[? ->]|[? ->]]; destruct (Qabsb_spec (b - a)) as [[? ->]|[? ->]];
  destruct (Qmaxb_spec (Qabsb a) (Qabsb b)) as [[? ->]|[? ->]]; destruct (Qmaxb_spec (Qabsb b) (Qabsb a)) as [[? ->]|[? ->]]; lra.
Qed.

Lemma far_trans : forall a b c, ~ near a b -> (a < b)%Q -> ~ near b c -> (b < c)%Q -> ~ near a c.
Proof.
  intros a b c. unfold near.
  destruct (Qabsb_spec (a - b)) as [[? ->]|[? ->]]; [intros; lra|].
  destruct (Qabsb_spec (b - c)) as [[? ->]|[? ->]]; [intros; lra|].
  destruct (Qabsb_spec (a - c)) as [[? ->]|[? ->]]; [intros; lra|].
  intros F1 L1 F2 L2 F3. pose proof (absb_nonneg b).
  apply Qnot_le_lt in F1. apply Qnot_le_lt in F2.
  destruct (Qmaxb_spec (Qabsb a) (Qabsb b)) as [[? E1]|[? E1]]; rewrite E1 in F1;
  destruct (Qmaxb_spec (Qabsb b) (Qabsb c)) as [[? E2]|[? E2]]; rewrite E2 in F2;
  destruct (Qmaxb_spec (Qabsb a) (Qabsb c)) as [[? E3]|[? E3]]; rewrite E3 in F3; lra.
Qed.

Lemma precedes_irrefl : forall t s, ~ precedes t s t s.
Proof. intros t s [[_ H]|[_ H]]; [lia|lra]. Qed.
Lemma precedes_asym : forall ta sa tb sb, precedes ta sa tb sb -> ~ precedes tb sb ta sa.
Proof.
  intros ta sa tb sb [[N H]|[N H]] [[N2 H2]|[N2 H2]]; try lia; try lra.
  - apply near_sym in N. tauto.
  - apply near_sym in N2. tauto.
Qed.
Lemma precedes_trans : forall ta tb tc s, precedes ta s tb s -> precedes tb s tc s -> precedes ta s tc s.
Proof.
  intros ta tb tc s [[? ?]|[N H]] [[? ?]|[N2 H2]]; try lia. right. split; [eapply far_trans; eauto|lra].
Qed.

(** C138 *)
Lemma orders : forall (a b : cc) (k l : keysig) (t u : tempo) (s v : tsig),
  (cc_ltb a b = true <-> precedes (cc_time a) (cc_seq a) (cc_time b) (cc_seq b)) /\
  (k_ltb k l = true <-> precedes (k_time k) (k_seq k) (k_time l) (k_seq l)) /\
  (t_ltb t u = true <-> precedes (t_time t) (t_seq t) (t_time u) (t_seq u)) /\
  (s_ltb s v = true <-> precedes (s_time s) (s_seq s) (s_time v) (s_seq v)).
Proof. intros. repeat split; apply order_spec. Qed.

Lemma andthen_seq : forall (r : res unit * cc) k z, cc_seq (snd r) = z -> (forall c, cc_seq c = z -> cc_seq (snd (k c)) = z) ->
  cc_seq (snd (andthen r k)) = z.
Proof. intros [[u|e] c] k z H K; cbn in *; auto. Qed.
Lemma set_step_seq : forall c v, cc_seq (snd (cc_set_step c v)) = cc_seq c.
Proof. intros. unfold cc_set_step. destruct (_ || _); reflexivity. Qed.
Lemma set_qs_seq : forall c v, cc_seq (snd (cc_set_qs c v)) = cc_seq c.
Proof. intros. unfold cc_set_qs. destruct (v <? 0); [reflexivity|]. destruct (_ <=? _); reflexivity. Qed.
Lemma set_qe_seq : forall c v, cc_seq (snd (cc_set_qe c v)) = cc_seq c.
Proof. intros. unfold cc_set_qe. destruct (v <? 0); [reflexivity|]. destruct (_ <=? _); reflexivity. Qed.
Lemma cc_step_seq : forall c o, cc_seq (snd (cc_do c o)) = cc_seq c.
Proof.
  intros c o. destruct o; cbn [cc_do]; [apply set_step_seq|apply set_qs_seq|apply set_qe_seq| |reflexivity].
  unfold cc_quantize_in_place. apply andthen_seq; [apply set_qs_seq|]. intros c1 E1.
  apply andthen_seq; [rewrite set_qe_seq; auto|]. intros c2 E2. apply andthen_seq; [rewrite set_qs_seq; auto|]. intros c3 E3.
  destruct (cc_qs c3 <? 0); [auto|]. destruct (cc_qe c3 <? 0); [auto|].
  apply andthen_seq; [destruct (_ =? _); [rewrite set_qe_seq; auto|auto]|]. intros c4 E4. rewrite set_step_seq; auto.
Qed.
Lemma cc_run_seq : forall ops c, cc_seq (cc_run c ops) = cc_seq c.
Proof. induction ops as [|o ops IH]; intros c; [reflexivity|]. unfold cc_run in *. cbn [fold_left]. rewrite IH. apply cc_step_seq. Qed.

Lemma cc_order : forall a b c : cc,
  (exists n v t p i d s qs qe ops, a = cc_run (cc_new n v t p i d s qs qe) ops) ->
  (exists n v t p i d s qs qe ops, b = cc_run (cc_new n v t p i d s qs qe) ops) ->
  (exists n v t p i d s qs qe ops, c = cc_run (cc_new n v t p i d s qs qe) ops) ->
  cc_ltb a a = false /\ (cc_ltb a b = true -> cc_ltb b a = false) /\
  (cc_ltb a b = true -> cc_ltb b c = true -> cc_ltb a c = true) /\
  (cc_ltb a b = true <-> ~ near (cc_time a) (cc_time b) /\ (cc_time a < cc_time b)%Q).
Proof.
  intros a b c (n1&v1&t1&p1&i1&d1&s1&qs1&qe1&ops1&->) (n2&v2&t2&p2&i2&d2&s2&qs2&qe2&ops2&->) (n3&v3&t3&p3&i3&d3&s3&qs3&qe3&ops3&->).
  assert (S1 : cc_seq (cc_run (cc_new n1 v1 t1 p1 i1 d1 s1 qs1 qe1) ops1) = 0) by (rewrite cc_run_seq; reflexivity).
  assert (S2 : cc_seq (cc_run (cc_new n2 v2 t2 p2 i2 d2 s2 qs2 qe2) ops2) = 0) by (rewrite cc_run_seq; reflexivity).
  assert (S3 : cc_seq (cc_run (cc_new n3 v3 t3 p3 i3 d3 s3 qs3 qe3) ops3) = 0) by (rewrite cc_run_seq; reflexivity).
  set (a := cc_run _ ops1) in *. set (b := cc_run _ ops2) in *. set (c := cc_run _ ops3) in *. clearbody a b c.
  assert (O : forall x y, cc_ltb x y = true <-> precedes (cc_time x) (cc_seq x) (cc_time y) (cc_seq y)) by (intros; apply order_spec).
  assert (F : forall x y, cc_ltb x y = false <-> ~ precedes (cc_time x) (cc_seq x) (cc_time y) (cc_seq y)).
  { intros x y. rewrite <- O. destruct (cc_ltb x y); split; intros; try congruence; exfalso; auto. }
  split; [apply F; apply precedes_irrefl|]. split; [intros H; apply F; apply precedes_asym; apply O; auto|].
  split.
  - intros H1 H2. apply O in H1. apply O in H2. apply O. rewrite S1, S2, S3 in *. eapply precedes_trans; eauto.
  - rewrite O, S1, S2. unfold precedes. split; [intros [[_ H]|H]; [lia|auto]|auto].
Qed.

Lemma shift_only : forall c d,
  cc_time (cc_shift c d) = (cc_time c + d)%Q /\ cc_number (cc_shift c d) = cc_number c /\ cc_value (cc_shift c d) = cc_value c /\
  cc_program (cc_shift c d) = cc_program c /\ cc_instrument (cc_shift c d) = cc_instrument c /\ cc_drum (cc_shift c d) = cc_drum c /\
  cc_step (cc_shift c d) = cc_step c /\ cc_qs (cc_shift c d) = cc_qs c /\ cc_qe (cc_shift c d) = cc_qe c /\
  cc_quantized (cc_shift c d) = cc_quantized c /\ cc_seq (cc_shift c d) = cc_seq c.
Proof. intros. repeat split. Qed.

Lemma shift_back : forall c d, cc_eqb (cc_shift (cc_shift c d) (- d)) c = true.
Proof.
  intros c d. unfold cc_eqb, cc_shift; cbn [cc_number cc_value cc_time cc_program cc_instrument cc_drum cc_step cc_qs cc_qe].
  rewrite !Z.eqb_refl, Bool.eqb_reflx. assert (E : Qeq_bool (cc_time c + d + - d) (cc_time c) = true) by (apply Qeq_bool_iff; lra).
  rewrite E. reflexivity.
Qed.

(** C139 *)
Lemma base_cc : forall a b,
  (bc_eqb a b = true <-> bc_number a = bc_number b /\ bc_description a = bc_description b) /\
  (bc_neb a b = true <-> bc_number a <> bc_number b) /\
  (bc_eqb a b = true -> bc_neb a b = false) /\
  (bc_eqb a b = false /\ bc_neb a b = false <-> bc_number a = bc_number b /\ bc_description a <> bc_description b).
Proof.
  intros a b. unfold bc_eqb, bc_neb. rewrite Bool.andb_true_iff, Z.eqb_eq, String.eqb_eq, Bool.negb_true_iff, Z.eqb_neq, !Bool.negb_false_iff, Z.eqb_eq, Bool.andb_false_iff, Z.eqb_neq, String.eqb_neq.
  tauto.
Qed.

(** C140 *)
Lemma bend_eq : forall a b, b_eqb a b = true <->
  b_amount a = b_amount b /\ b_program a = b_program b /\ b_instrument a = b_instrument b /\ b_drum a = b_drum b /\
  (b_time a = None <-> b_time b = None) /\ (forall x y, b_time a = Some x -> b_time b = Some y -> (x == y)%Q).
Proof.
  intros a b. unfold b_eqb. rewrite !Bool.andb_true_iff, !Z.eqb_eq, Bool.eqb_true_iff.
  destruct (b_time a) as [x|], (b_time b) as [y|]; rewrite ?Qeq_bool_iff.
  - split; [intros [[[[-> ->] ->] E] ->]; repeat split; auto; try discriminate; intros; congruence|].
    intros (->&->&->&->&_&H). repeat split; auto.
  - split; [intros [[[_ _] H] _]; discriminate|]. intros (_&_&_&_&[_ H]&_). specialize (H eq_refl). discriminate.
  - split; [intros [[[_ _] H] _]; discriminate|]. intros (_&_&_&_&[H _]&_). specialize (H eq_refl). discriminate.
  - split; [intros [[[[-> ->] ->] E] ->]; repeat split; auto; try discriminate; intros; congruence|].
    intros (->&->&->&->&_&_). repeat split; auto.
Qed.

Lemma ppq_value : forall ppq us ticks, ~ (ppq == 0)%Q -> ~ (us == 0)%Q -> ~ (ticks == 0)%Q ->
  exists q, ppq_to_qpm ppq us ticks = Ok q /\ (q == 60 / ppq)%Q.
Proof.
  intros ppq us ticks A B C. unfold ppq_to_qpm.
  assert (N : ~ (ticks * us * (1 # 1000000) == 0)%Q).
  { intros K. apply Qmult_integral in K. destruct K as [K|K]; [|lra]. apply Qmult_integral in K. tauto. }
  destruct (Qeq_bool (ticks * us * (1 # 1000000)) 0) eqn:E; [apply Qeq_bool_iff in E; tauto|]. cbv zeta.
  assert (N2 : ~ (1 / (ticks * us * (1 # 1000000)) * ppq == 0)%Q).
  { intros K. apply Qmult_integral in K. destruct K as [K|K]; [|tauto].
    assert (K2 : (1 / (ticks * us * (1 # 1000000)) * (ticks * us * (1 # 1000000)) == 1)%Q) by (field; auto).
    rewrite K in K2. lra. }
  destruct (Qeq_bool (1 / (ticks * us * (1 # 1000000)) * ppq) 0) eqn:E2; [apply Qeq_bool_iff in E2; tauto|].
  eexists. split; [reflexivity|]. field. repeat split; auto.
Qed.

Lemma insert_amount : forall k x l,
  filter (fun y => b_amount y =? k) (insert_stable b_ltb x l) = filter (fun y => b_amount y =? k) (x :: l).
Proof.
  intros k x l. induction l as [|y l IH]; [reflexivity|]. cbn [insert_stable]. unfold b_ltb at 1.
  destruct (b_amount y <? b_amount x) eqn:C; [|reflexivity].
  cbn [filter] in *. rewrite IH. apply Z.ltb_lt in C.
  destruct (b_amount y =? k) eqn:E1; destruct (b_amount x =? k) eqn:E2; auto.
  apply Z.eqb_eq in E1. apply Z.eqb_eq in E2. lia.
Qed.

Lemma bend_sort : forall l,
  let s := py_sort b_ltb l in
  Permutation l s /\ StronglySorted (fun a b => b_amount a <= b_amount b) s /\
  (forall k, filter (fun y => b_amount y =? k) s = filter (fun y => b_amount y =? k) l).
Proof.
  intros l s. split; [apply py_sort_perm|]. split.
  - assert (K : StronglySorted (fun a b => b_ltb b a = false) s).
    { apply py_sort_sorted; unfold b_ltb; intros.
      - apply Z.ltb_ge. apply Z.ltb_lt in H. lia.
      - apply Z.ltb_ge. apply Z.ltb_ge in H. apply Z.ltb_ge in H0. lia. }
    clearbody s. induction K as [|a r K IH F]; constructor; auto.
    eapply Forall_impl; [|exact F]. intros b Hb. unfold b_ltb in Hb. apply Z.ltb_ge in Hb. auto.
  - intros k. subst s. induction l as [|x l IH]; [reflexivity|]. unfold py_sort in *. cbn [fold_right].
    rewrite insert_amount. cbn [filter]. rewrite IH. reflexivity.
Qed.

Lemma keysig_new : forall time key m,
  (forall k, k_new time key m = Ok k <-> (m = 0 \/ m = 1) /\ k = mkK time key (if m =? 0 then MajorMode else MinorMode) 0) /\
  ((m <> 0 /\ m <> 1) <-> k_new time key m = Err ValueError).
Proof.
  intros time key m. unfold k_new, major_or_minor, bind.
  destruct (m =? 0) eqn:A; [apply Z.eqb_eq in A|apply Z.eqb_neq in A; destruct (m =? 1) eqn:B; [apply Z.eqb_eq in B|apply Z.eqb_neq in B]].
  - split; [intros k; split; [intros H; inversion H; auto|intros [_ ->]; auto]|split; [tauto|discriminate]].
  - split; [intros k; split; [intros H; inversion H; auto|intros [_ ->]; auto]|split; [tauto|discriminate]].
  - split; [intros k; split; [discriminate|tauto]|tauto].
Qed.
