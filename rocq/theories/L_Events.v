From Coq Require Import Lia Lqa Qround QArith Qfield Qpower Permutation.
From Verif Require Import PyBase L_Base M_Note M_Events S_Note S_Events L_Note.
Open Scope Z_scope.

Lemma clamp255_near : forall v, nearest_in 0 255 v (clamp255 v).
Proof. intro v. unfold clamp255. replace (Z.min (Z.max 0 v) 255) with (Z.max 0 (Z.min 255 v)) by lia. apply nearest_clamp; lia. Qed.

(** cc *)
Lemma andthen_snd : forall A (P : A -> Prop) (r : res unit * A) k, P (snd r) -> (forall a, P a -> P (snd (k a))) -> P (snd (andthen r k)).
Proof. intros A P [[[]|e] a] k H K; simpl in *; auto. Qed.
Definition cc_inv (c0 c : cc) : Prop :=
  cc_number c = cc_number c0 /\ cc_value c = cc_value c0 /\ cc_program c = cc_program c0 /\
  cc_instrument c = cc_instrument c0 /\ 1 <= cc_step c <= 32.
Lemma cc_set_qs_inv : forall c0 c v, cc_inv c0 c -> cc_inv c0 (snd (cc_set_qs c v)).
Proof. intros; unfold cc_set_qs. destruct (v <? 0); auto. destruct (cc_qe c <=? v); auto. Qed.
Lemma cc_set_qe_inv : forall c0 c v, cc_inv c0 c -> cc_inv c0 (snd (cc_set_qe c v)).
Proof. intros; unfold cc_set_qe. destruct (v <? 0); auto. destruct (v <=? cc_qs c); auto. Qed.
Lemma cc_set_step_inv : forall c0 c v, cc_inv c0 c -> cc_inv c0 (snd (cc_set_step c v)).
Proof.
  intros; unfold cc_set_step. destruct (Z.ltb_spec v 1), (Z.ltb_spec 32 v); simpl; auto.
  unfold cc_inv in *; simpl; intuition.
Qed.
Lemma cc_do_inv : forall c0 c o, cc_inv c0 c -> cc_inv c0 (snd (cc_do c o)).
Proof.
  intros c0 c o H; destruct o; simpl; auto using cc_set_qs_inv, cc_set_qe_inv, cc_set_step_inv.
  unfold cc_quantize_in_place.
  apply andthen_snd with (P := cc_inv c0); auto using cc_set_qs_inv; intros.
  apply andthen_snd with (P := cc_inv c0); auto using cc_set_qe_inv; intros.
  apply andthen_snd with (P := cc_inv c0); auto using cc_set_qs_inv; intros.
  destruct (cc_qs a1 <? 0); auto. destruct (cc_qe a1 <? 0); auto.
  apply andthen_snd with (P := cc_inv c0); auto using cc_set_step_inv; intros.
  destruct (cc_qe a1 =? cc_qs a1); auto using cc_set_qe_inv.
Qed.
Lemma cc_run_inv : forall ops c0 c, cc_inv c0 c -> cc_inv c0 (cc_run c ops).
Proof. induction ops; intros; simpl; auto. apply IHops. apply cc_do_inv; auto. Qed.

Lemma cc_ranges : forall number value time program instrument drum step qs qe ops,
  let c0 := cc_new number value time program instrument drum step qs qe in
  let c := cc_run c0 ops in
  nearest_in 0 255 number (cc_number c) /\ nearest_in 0 255 value (cc_value c) /\
  nearest_in 0 255 program (cc_program c) /\ nearest_in 0 255 instrument (cc_instrument c) /\
  nearest_in 1 32 step (cc_step c0) /\ 1 <= cc_step c <= 32 /\
  ((0 <= time)%Q -> cc_time c0 = time) /\ (0 <= cc_time c0)%Q.
Proof.
  intros. assert (I : cc_inv c0 c).
  { apply cc_run_inv. unfold cc_inv. subst c0; simpl. repeat split; auto; lia. }
  destruct I as [-> [-> [-> [-> I]]]]. subst c0; cbn [cc_new cc_number cc_value cc_program cc_instrument cc_step cc_time] in *.
  do 4 (split; [apply clamp255_near|]).
  split; [replace (Z.min (Z.max 1 step) 32) with (Z.max 1 (Z.min 32 step)) by lia; apply nearest_clamp; lia|].
  split; [exact I|].
  destruct (Qmaxb_spec 0 time) as [[H ->]|[H ->]]; split; intros; auto; lra.
Qed.

Lemma cc_quantize_raises0 : forall c sps amount,
  fst (cc_quantize_in_place c sps amount) = Err ValueError /\
  let c' := snd (cc_quantize_in_place c sps amount) in
  (c' = c \/ (c' = snd (cc_set_qs c (cc_qs c')) /\ 0 <= cc_qs c' < cc_qe c /\ cc_quantized c' = true)).
Proof.
  intros. set (v := cc_nearest_step (cc_time c) sps amount).
  assert (E : cc_quantize_in_place c sps amount = (Err ValueError, snd (cc_set_qs c v))).
  { unfold cc_quantize_in_place. fold v. destruct (cc_set_qs c v) as [r c1] eqn:S.
    unfold cc_set_qs in S.
    destruct (Z.ltb_spec v 0); [injection S as <- <-; reflexivity|].
    destruct (Z.leb_spec (cc_qe c) v); [injection S as <- <-; reflexivity|].
    injection S as <- <-. cbn [andthen cc_time snd]. fold v.
    unfold cc_set_qe. cbn [cc_qs]. destruct (Z.ltb_spec v 0); [lia|]. rewrite Z.leb_refl. reflexivity. }
  rewrite E. cbn [fst snd]. split; auto. cbv zeta.
  destruct (Z_lt_le_dec v 0) as [L|L]; [left; unfold cc_set_qs; destruct (Z.ltb_spec v 0); [auto|lia]|].
  destruct (Z_le_gt_dec (cc_qe c) v) as [L'|L'];
    [left; unfold cc_set_qs; destruct (Z.ltb_spec v 0); [auto|]; destruct (Z.leb_spec (cc_qe c) v); [auto|lia]|]. right.
  assert (S : cc_set_qs c v = (Ok tt, mkCC (cc_number c) (cc_value c) (cc_time c) (cc_program c) (cc_instrument c) (cc_drum c)
                    (cc_step c) v (cc_qe c) true (cc_seq c))).
  { unfold cc_set_qs. destruct (Z.ltb_spec v 0); [lia|]. destruct (Z.leb_spec (cc_qe c) v); [lia|]. reflexivity. }
  rewrite S. cbn [snd cc_qs cc_quantized]. rewrite S. split; [auto|]. split; [lia|auto].
Qed.
Lemma cc_quantize_raises : forall c sps amount,
  fst (cc_quantize_in_place c sps amount) = Err ValueError /\
  cc_quantize c sps amount = Err ValueError /\
  let c' := snd (cc_quantize_in_place c sps amount) in
  (c' = c \/ (c' = snd (cc_set_qs c (cc_qs c')) /\ 0 <= cc_qs c' < cc_qe c /\ cc_quantized c' = true)).
Proof.
  intros. destruct (cc_quantize_raises0 c sps amount) as [H1 H2]. split; auto. split; auto.
  unfold cc_quantize. destruct (cc_quantize_raises0 (cc_make_copy c) sps amount) as [H _].
  destruct (cc_quantize_in_place (cc_make_copy c) sps amount) as [[[]|e] d]; simpl in H; congruence.
Qed.

(** bends *)
Lemma in127 : forall v, ((0 <=? v) && (v <=? 127) = true <-> 0 <= v <= 127).
Proof. intro. rewrite andb_true_iff, !Z.leb_le. reflexivity. Qed.
Lemma b_new_iff : forall amount program instrument time drum,
  ((-8191 <= amount <= 8191 /\ 0 <= program <= 127 /\ 0 <= instrument <= 127 /\ (0 <= time)%Q) ->
   exists t, b_new amount program instrument (Some time) drum = Ok (mkB amount program instrument (Some t) drum) /\ (t == time)%Q) /\
  (~ (-8191 <= amount <= 8191 /\ 0 <= program <= 127 /\ 0 <= instrument <= 127 /\ (0 <= time)%Q) ->
   b_new amount program instrument (Some time) drum = Err ValueError).
Proof.
  intros. unfold b_new, clamp255. split.
  - intros [A [P [I T]]].
    rewrite (proj2 (Z.leb_le (-8191) amount)), (proj2 (Z.leb_le amount 8191)) by lia.
    rewrite (proj2 (in127 program)), (proj2 (in127 instrument)) by lia. cbn [andb negb].
    qcase (Qltb time 0); [lra|]. exists (Qmaxb time 0). split.
    + repeat f_equal; lia.
    + destruct (Qmaxb_spec time 0) as [[H ->]|[H ->]]; lra.
  - intro N.
    destruct (Z.leb_spec (-8191) amount), (Z.leb_spec amount 8191); cbn [andb negb]; auto.
    destruct ((0 <=? program) && (program <=? 127)) eqn:E1; cbn [negb]; auto.
    destruct ((0 <=? instrument) && (instrument <=? 127)) eqn:E2; cbn [negb]; auto.
    apply in127 in E1, E2. qcase (Qltb time 0); auto. exfalso; apply N. auto.
Qed.
Lemma b_do_ok : forall b o, bend_ok b -> bend_ok (snd (b_do b o)) /\ b_amount (snd (b_do b o)) = b_amount b /\
  b_drum (snd (b_do b o)) = b_drum b /\
  (forall e, fst (b_do b o) = Err e -> e = ValueError /\ snd (b_do b o) = b).
Proof.
  intros b o H. destruct o; simpl.
  - unfold b_set_program. destruct ((0 <=? v) && (v <=? 127)) eqn:E; simpl.
    + apply in127 in E. unfold bend_ok in *; simpl. split; [tauto|]. repeat split; auto; congruence.
    + split; auto. split; auto. split; auto. intros e X; injection X as <-; auto.
  - unfold b_set_instrument. destruct ((0 <=? v) && (v <=? 127)) eqn:E; simpl.
    + apply in127 in E. unfold bend_ok in *; simpl. split; [tauto|]. repeat split; auto; congruence.
    + split; auto. split; auto. split; auto. intros e X; injection X as <-; auto.
  - unfold b_set_time. destruct v as [t|]; [qcase (Qltb t 0)|]; simpl.
    + split; auto. split; auto. split; auto. intros e X; injection X as <-; auto.
    + unfold bend_ok in *; simpl. split; [|repeat split; auto; congruence].
      destruct H as [? [? [? ?]]]. split; auto. split; auto. split; auto. intros t' X; injection X as <-; auto.
    + unfold bend_ok in *; simpl. split; [|repeat split; auto; congruence].
      destruct H as [? [? [? ?]]]. split; auto. split; auto. split; auto. congruence.
Qed.
Lemma b_run_pres : forall ops b, bend_ok b -> bend_ok (b_run b ops) /\ b_amount (b_run b ops) = b_amount b /\
  b_drum (b_run b ops) = b_drum b.
Proof.
  induction ops as [|o ops IH]; intros b H; simpl; auto.
  destruct (b_do_ok b o H) as [H1 [H2 [H3 _]]]. destruct (IH _ H1) as [I1 [I2 I3]].
  unfold b_run in *; simpl. split; auto. split; congruence.
Qed.
Lemma b_new_ok : forall amount program instrument time drum b,
  b_new amount program instrument time drum = Ok b -> bend_ok b /\ b_amount b = amount /\ b_drum b = drum.
Proof.
  intros amount program instrument time drum b H. unfold b_new in H.
  destruct (Z.leb_spec (-8191) amount), (Z.leb_spec amount 8191); cbn [andb negb] in H; try discriminate.
  destruct ((0 <=? program) && (program <=? 127)) eqn:E1; cbn [negb] in H; [|discriminate].
  destruct ((0 <=? instrument) && (instrument <=? 127)) eqn:E2; cbn [negb] in H; [|discriminate].
  apply in127 in E1, E2.
  assert (X : forall t, (0 <= t)%Q -> bend_ok (mkB amount (clamp255 program) (clamp255 instrument) (Some t) drum)).
  { intros t Ht. unfold bend_ok, clamp255; simpl. repeat split; try lia. intros t' Y; injection Y as <-; auto. }
  destruct time as [t|].
  - qcase (Qltb t 0); [discriminate|]. apply Ok_inj in H; subst b. split; [apply X|auto].
    destruct (Qmaxb_max t 0) as [? [? _]]; auto.
  - apply Ok_inj in H; subst b. split; [apply X; lra|auto].
Qed.
Lemma b_run_ok : forall amount program instrument time drum b ops o,
  b_new amount program instrument time drum = Ok b ->
  bend_ok (b_run b ops) /\ b_amount (b_run b ops) = amount /\ b_drum (b_run b ops) = drum /\
  (forall e, fst (b_do (b_run b ops) o) = Err e -> e = ValueError /\ snd (b_do (b_run b ops) o) = b_run b ops).
Proof.
  intros amount program instrument time drum b ops o H. apply b_new_ok in H as [H1 [H2 H3]].
  destruct (b_run_pres ops b H1) as [R1 [R2 R3]]. split; auto. split; [congruence|]. split; [congruence|].
  apply (b_do_ok _ o R1).
Qed.

(** instruments *)
Lemma family_name_in : forall fams n, 
  (exists lo hi nm, In (lo, hi, nm) fams /\ lo <= n < hi /\ family_name fams n = nm) \/
  ((forall lo hi nm, In (lo, hi, nm) fams -> ~ lo <= n < hi) /\ family_name fams n = "Unknown"%string).
Proof.
  induction fams as [|[[lo hi] nm] r IH]; intro n.
  - right; split; [intros ? ? ? []|reflexivity].
  - cbn [family_name]. destruct ((lo <=? n) && (n <? hi)) eqn:E.
    + apply andb_true_iff in E as [E1 E2]. apply Z.leb_le in E1. apply Z.ltb_lt in E2.
      left. exists lo, hi, nm. split; [left; auto|]. split; [lia|auto].
    + assert (N : ~ lo <= n < hi).
      { intros [A B]. rewrite (proj2 (Z.leb_le lo n)), (proj2 (Z.ltb_lt n hi)) in E by lia. discriminate. }
      destruct (IH n) as [[l [h [m [I [B F]]]]]|[N2 F]].
      * left. exists l, h, m. split; [right; auto|auto].
      * right. split; auto. intros l h m [I|I]; [congruence|eauto].
Qed.
Lemma families_are : forall lo hi nm n, In (lo, hi, nm) instrument_families -> lo <= n < hi ->
  1 <= n <= 128 /\ nm = nth (Z.to_nat ((n - 1) / 8)) gm_family_names ""%string /\ nm <> ""%string.
Proof.
  intros lo hi nm n H B. unfold instrument_families in H. simpl in H.
  assert (D : forall k, 8 * k <= n - 1 < 8 * k + 8 -> (n - 1) / 8 = k).
  { intros k K. symmetry. apply Z.div_unique with (r := n - 1 - 8 * k); lia. }
  repeat (destruct H as [H|H]; [injection H as <- <- <-; split; [lia|]; split; [|discriminate];
    first [rewrite (D 0) by lia; reflexivity|rewrite (D 1) by lia; reflexivity|rewrite (D 2) by lia; reflexivity
          |rewrite (D 3) by lia; reflexivity|rewrite (D 4) by lia; reflexivity|rewrite (D 5) by lia; reflexivity
          |rewrite (D 6) by lia; reflexivity|rewrite (D 7) by lia; reflexivity|rewrite (D 8) by lia; reflexivity
          |rewrite (D 9) by lia; reflexivity|rewrite (D 10) by lia; reflexivity|rewrite (D 11) by lia; reflexivity
          |rewrite (D 12) by lia; reflexivity|rewrite (D 13) by lia; reflexivity|rewrite (D 14) by lia; reflexivity
          |rewrite (D 15) by lia; reflexivity]|]).
  contradiction.
Qed.
Lemma families_cover : forall n, 1 <= n <= 128 -> exists lo hi nm, In (lo, hi, nm) instrument_families /\ lo <= n < hi.
Proof.
  intros n H. unfold instrument_families.
  assert (X : forall lo hi (nm : string) (l : list (Z * Z * string)), (lo <= n < hi \/ exists lo' hi' nm', In (lo', hi', nm') l /\ lo' <= n < hi') ->
     exists lo' hi' nm', In (lo', hi', nm') ((lo, hi, nm) :: l) /\ lo' <= n < hi').
  { intros lo hi nm l [A|[lo' [hi' [nm' [A B]]]]]; [exists lo, hi, nm; split; [left|]; auto|].
    exists lo', hi', nm'; split; [right|]; auto. }
  repeat (apply X; match goal with |- (?a <= n < ?b) \/ _ => destruct (Z_lt_le_dec n b); [left; lia|right] end).
  lia.
Qed.
Lemma family_name_facts : forall fams n, Permutation fams instrument_families ->
  (1 <= n <= 128 -> family_name fams n = nth (Z.to_nat ((n - 1) / 8)) gm_family_names ""%string) /\
  (n <= 0 \/ 128 < n -> family_name fams n = "Unknown"%string) /\ family_name fams n <> ""%string.
Proof.
  intros fams n P. destruct (family_name_in fams n) as [[lo [hi [nm [I [B F]]]]]|[N F]].
  - destruct (families_are lo hi nm n (Permutation_in _ P I) B) as [R [E D]].
    split; [congruence|]. split; [lia|congruence].
  - split; [|split; [auto|rewrite F; discriminate]]. intro R.
    destruct (families_cover n R) as [lo [hi [nm [I B]]]].
    exfalso. apply (N lo hi nm); auto. apply (Permutation_in _ (Permutation_sym P) I).
Qed.
Lemma i_new_eq : forall fams num name drum, 0 <= num <= 255 ->
  i_new fams num name drum = Ok (mkI num (if String.eqb name "" then family_name fams num else name) drum).
Proof.
  intros. unfold i_new. rewrite (proj2 (Z.leb_le 0 num)), (proj2 (Z.leb_le num 255)) by lia. cbn [andb negb].
  unfold clamp255. repeat f_equal. lia.
Qed.
Lemma i_default_name : forall fams num name drum, Permutation fams instrument_families ->
  0 <= num <= 255 ->
  exists i, i_new fams num name drum = Ok i /\ i_num i = num /\ i_drum i = drum /\
    (name <> ""%string -> i_name i = name) /\
    (name = ""%string -> 1 <= num <= 128 ->
       i_name i = nth (Z.to_nat ((num - 1) / 8)) gm_family_names ""%string) /\
    (name = ""%string -> num = 0 \/ 128 < num -> i_name i = "Unknown"%string).
Proof.
  intros fams num name drum P R. rewrite i_new_eq by auto. eexists; split; [reflexivity|].
  cbn [i_num i_name i_drum]. split; auto. split; auto.
  destruct (family_name_facts fams num P) as [F1 [F2 _]].
  split; [|split].
  - intro N. destruct (String.eqb_spec name ""); congruence.
  - intros -> B. cbn [String.eqb]. auto.
  - intros -> B. cbn [String.eqb]. apply F2. lia.
Qed.
Lemma i_round_trip : forall f1 f2 num name drum i, Permutation f1 instrument_families ->
  (i_new f1 num name drum = Ok i -> i_from_dict f2 (i_to_dict i) = Ok i /\ i_name i <> ""%string) /\
  (~ 0 <= num <= 255 -> i_new f1 num name drum = Err ValueError).
Proof.
  intros f1 f2 num name drum i P. split.
  - intro H. assert (R : 0 <= num <= 255).
    { unfold i_new in H. destruct (Z.leb_spec 0 num), (Z.leb_spec num 255); simpl in H; try discriminate; lia. }
    rewrite i_new_eq in H by auto. apply Ok_inj in H. subst i.
    assert (NE : (if String.eqb name "" then family_name f1 num else name) <> ""%string).
    { destruct (String.eqb_spec name ""); auto. apply family_name_facts; auto. }
    split; [|exact NE]. unfold i_from_dict, i_to_dict. cbn [d_num d_name d_drum i_num i_name i_drum].
    rewrite i_new_eq by auto. destruct (String.eqb_spec (if String.eqb name "" then family_name f1 num else name) ""); [contradiction|auto].
  - intro N. unfold i_new. destruct (Z.leb_spec 0 num), (Z.leb_spec num 255); simpl; auto. lia.
Qed.
Lemma i_eq_hash : forall h a b, (i_eqb a b = true <-> a = b) /\ (i_eqb a b = true -> i_hash h a = i_hash h b).
Proof.
  intros h a b. assert (E : i_eqb a b = true <-> a = b).
  { unfold i_eqb. rewrite !andb_true_iff, Z.eqb_eq, String.eqb_eq, Bool.eqb_true_iff.
    destruct a, b; simpl. split; [intros [[-> ->] ->]; auto|intro X; injection X; auto]. }
  split; auto. intro H; apply E in H; congruence.
Qed.

(** tempo *)
Lemma tempo_new_ok : forall time qpm resolution t, tempo_new time qpm resolution = Ok t ->
  (0 < qpm)%Q /\ 0 < resolution /\ t = mkT time qpm resolution 0.
Proof.
  intros time qpm resolution t H; unfold tempo_new in H. qcase (Qle_bool qpm 0); [discriminate|].
  destruct (Z.leb_spec resolution 0); [discriminate|]. apply Ok_inj in H; auto.
Qed.
Lemma inject_pos : forall z, 0 < z -> (0 < inject_Z z)%Q.
Proof. intros. change 0%Q with (inject_Z 0). apply inject_Z_lt; auto. Qed.
Lemma Qeqb_false : forall a b, ~ (a == b)%Q -> Qeq_bool a b = false.
Proof. intros a b H. destruct (Qeq_bool a b) eqn:E; auto. apply Qeq_bool_iff in E. contradiction. Qed.
Lemma tempo_facts : forall time qpm resolution t, tempo_new time qpm resolution = Ok t ->
  (seconds_per_quarter t * qpm == 60)%Q /\
  (seconds_per_tick t * inject_Z resolution == 60 / qpm)%Q /\
  (t_bpm t * 4 == qpm)%Q /\
  (forall v, (t_bpm (t_set_bpm t v) == v)%Q /\ (t_qpm (t_set_bpm t v) == 4 * v)%Q).
Proof.
  intros time qpm resolution t H. apply tempo_new_ok in H as [Q [R ->]]. pose proof (inject_pos _ R) as RP.
  unfold seconds_per_quarter, seconds_per_tick, t_bpm, t_set_bpm; cbn [t_qpm t_resolution].
  rewrite Qeqb_false by lra.
  split; [field; split; lra|]. split; [field; split; lra|]. split; [field|]. intro v; split; field.
Qed.
Lemma tempo_to_qpm_facts : forall us,
  (~ (us == 0)%Q -> exists q, tempo_to_qpm us = Ok q /\ (q * us == 60000000)%Q) /\
  ((us == 0)%Q -> tempo_to_qpm us = Err ZeroDivisionError).
Proof.
  intro us; unfold tempo_to_qpm. split; intro H.
  - rewrite Qeqb_false by auto. eexists; split; [reflexivity|]. field. auto.
  - rewrite (proj2 (Qeq_bool_iff us 0)); auto.
Qed.
Lemma bpm_qpm_round_trip : forall bpm beats quarter,
  (qpm_to_bpm (bpm_to_qpm bpm beats) quarter == bpm * inject_Z (beats * quarter) / 60)%Q /\
  (~ (bpm == 0)%Q -> ~ (qpm_to_bpm (bpm_to_qpm bpm 4) 4 == bpm)%Q).
Proof.
  intros. unfold qpm_to_bpm, bpm_to_qpm. split.
  - rewrite inject_Z_mult. field.
  - intros H E. apply H. assert (F : (bpm / 60 * inject_Z 4 * inject_Z 4 == bpm * (16 # 60))%Q) by (change (inject_Z 4) with 4%Q; field).
    rewrite F in E. lra.
Qed.
Lemma sps_facts : forall time qpm resolution t, tempo_new time qpm resolution = Ok t ->
  (spq_to_sps (inject_Z resolution) qpm * seconds_per_tick t == 1)%Q /\
  (sps_from_bpm qpm resolution == spq_to_sps (inject_Z resolution) qpm)%Q /\
  (bpm_spq_to_sps (inject_Z resolution) qpm 4 * 4 == sps_from_bpm qpm resolution)%Q.
Proof.
  intros time qpm resolution t H. apply tempo_new_ok in H as [Q [R ->]]. pose proof (inject_pos _ R) as RP.
  unfold spq_to_sps, seconds_per_tick, sps_from_bpm, bpm_spq_to_sps; cbn [t_qpm t_resolution].
  rewrite Qeqb_false by lra. change (inject_Z 4) with 4%Q.
  split; [field; split; lra|]. split; field.
Qed.

(** time signatures *)
Lemma pow2_log2 : forall d, 0 < d -> (2 ^ Z.log2 d = d <-> power_of_two d).
Proof.
  intros d H. split.
  - intro E. exists (Z.log2 d). split; [apply Z.log2_nonneg|auto].
  - intros [k [K ->]]. rewrite Z.log2_pow2; auto.
Qed.
Lemma tsig_new_iff : forall time num den,
  (0 < num /\ power_of_two den -> tsig_new time num den = Ok (mkS time num den 0)) /\
  (~ (0 < num /\ power_of_two den) -> tsig_new time num den = Err ValueError).
Proof.
  intros. unfold tsig_new. split.
  - intros [N P]. assert (0 < den) by (destruct P as [k [K ->]]; apply Z.pow_pos_nonneg; lia).
    rewrite (proj2 (Z.leb_gt den 0)), (proj2 (Z.leb_gt num 0)) by auto. cbn [orb].
    rewrite (proj2 (Z.eqb_eq _ _) (proj2 (pow2_log2 den H) P)). reflexivity.
  - intro N. destruct (Z.leb_spec den 0), (Z.leb_spec num 0); cbn [orb]; auto.
    destruct (Z.eqb_spec (2 ^ Z.log2 den) den) as [E|E]; cbn [negb]; auto.
    exfalso; apply N. split; auto. apply pow2_log2; auto.
Qed.
Lemma beats_facts : forall time num den s, tsig_new time num den = Ok s ->
  exists q, beats_per_measure s = Ok q /\
    (den = 1 -> (q == inject_Z num)%Q) /\ (1 < den -> (q * 4 == inject_Z (num * den))%Q).
Proof.
  intros time num den s H. unfold tsig_new in H.
  destruct (Z.leb_spec den 0), (Z.leb_spec num 0); cbn [orb] in H; try discriminate.
  destruct (Z.eqb_spec (2 ^ Z.log2 den) den) as [E|E]; cbn [negb] in H; [|discriminate].
  apply Ok_inj in H; subst s. unfold beats_per_measure; cbn [s_den s_num].
  destruct (Z.eqb_spec den 1).
  - eexists; split; [reflexivity|]. split; [reflexivity|lia].
  - rewrite (proj2 (Z.eqb_eq _ _) E). cbn [negb]. eexists; split; [reflexivity|]. split; [lia|]. intros _.
    assert (P : (Qpower 2 (Z.log2 den - 2) * 4 == inject_Z den)%Q).
    { change 4%Q with (Qpower 2 2). rewrite <- Qpower_plus by (intro X; discriminate).
      replace (Z.log2 den - 2 + 2) with (Z.log2 den) by lia. rewrite <- E at 2.
      change 2%Q with (inject_Z 2). symmetry. apply Zpower_Qpower. apply Z.log2_nonneg. }
    rewrite <- Qmult_assoc, P, inject_Z_mult. reflexivity.
Qed.

(** copy *)
Lemma cc_copy : forall number value time program instrument drum step qs qe ops,
  let c := cc_run (cc_new number value time program instrument drum step qs qe) ops in
  let d := cc_make_copy c in
  cc_number d = cc_number c /\ cc_value d = cc_value c /\ cc_program d = cc_program c /\
  cc_instrument d = cc_instrument c /\ cc_qs d = cc_qs c /\ cc_qe d = cc_qe c /\
  cc_drum d = false /\ cc_step d = 4 /\
  ((0 <= cc_time c)%Q -> (cc_time d == cc_time c)%Q) /\ ((cc_time c <= 0)%Q -> (cc_time d == 0)%Q) /\
  (cc_eqb d c = true <-> cc_drum c = false /\ cc_step c = 4 /\ (0 <= cc_time c)%Q).
Proof.
  intros number value time program instrument drum step qs qe ops c d.
  destruct (cc_ranges number value time program instrument drum step qs qe ops) as [[A _] [[B _] [[P _] [[I _] _]]]].
  fold c in A, B, P, I.
  assert (C : forall v, 0 <= v <= 255 -> clamp255 v = v) by (intros; unfold clamp255; lia).
  assert (T : ((0 <= cc_time c)%Q -> (cc_time d == cc_time c)%Q) /\ ((cc_time c <= 0)%Q -> (cc_time d == 0)%Q)).
  { subst d; unfold cc_make_copy, cc_new; cbn [cc_time]. destruct (Qmaxb_max 0 (cc_time c)) as [? [? [?|?]]]; split; intros; lra. }
  assert (T0 : (0 <= cc_time d)%Q).
  { subst d; unfold cc_make_copy, cc_new; cbn [cc_time]. apply Qmaxb_max. }
  assert (F : cc_number d = cc_number c /\ cc_value d = cc_value c /\ cc_program d = cc_program c /\
     cc_instrument d = cc_instrument c /\ cc_qs d = cc_qs c /\ cc_qe d = cc_qe c /\ cc_drum d = false /\ cc_step d = 4).
  { subst d; unfold cc_make_copy, cc_new; cbn. rewrite !C by auto. repeat split; auto. }
  destruct F as [F1 [F2 [F3 [F4 [F5 [F6 [F7 F8]]]]]]]. clearbody d c.
  repeat (split; [assumption|]). split; [apply T|]. split; [apply T|].
  unfold cc_eqb. rewrite F1, F2, F3, F4, F5, F6, F7, F8, !Z.eqb_refl. cbn [andb].
  rewrite !andb_true_r, !andb_true_iff, Qeq_bool_iff, Bool.eqb_true_iff, Z.eqb_eq. split.
  - intros [[E1 E2] E3]. split; [auto|]. split; [auto|]. lra.
  - intros [E1 [E2 E3]]. split; [split|]; auto. apply T; auto.
Qed.
