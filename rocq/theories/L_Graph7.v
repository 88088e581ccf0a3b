From Coq Require Import Sorted Permutation Relations QArith Qabs Qround Lia Lqa Znumtheory.
From Verif Require Import PyBase L_Base L_Sort M_Note L_Note M_Events M_Seq S_Seq L_Seq M_Chord M_Graph S_Graph L_Chord L_Chord2 L_Chord3 L_Graph L_Graph2 L_Graph3 L_Graph4 L_Graph5.
Open Scope Z_scope.

(** The hash of a time with a power of two as denominator. *)
Lemma inverse_table : forall j, 0 <= j <= 60 -> powmod (2 ^ j) (Z.to_pos (hash_modulus - 2)) hash_modulus = 2 ^ (61 - j) mod hash_modulus.
Proof.
  assert (T : forallb (fun j => powmod (2 ^ Z.of_nat j) (Z.to_pos (hash_modulus - 2)) hash_modulus =? 2 ^ (61 - Z.of_nat j) mod hash_modulus) (List.seq 0 61) = true) by (vm_compute; reflexivity).
  intros j J. rewrite forallb_forall in T. specialize (T (Z.to_nat j)). rewrite Z2Nat.id in T by lia. apply Z.eqb_eq. apply T. apply in_seq. lia.
Qed.
Lemma divides_pow2 : forall j d, 0 < d -> (d | 2 ^ Z.of_nat j) -> exists i, 0 <= i <= Z.of_nat j /\ d = 2 ^ i.
Proof.
  induction j as [|j IH]; intros d D H.
  - cbn in H. exists 0. split; [lia|]. apply Z.divide_1_r_nonneg in H; lia.
  - rewrite Nat2Z.inj_succ, Z.pow_succ_r in H by lia. destruct (Z.Even_or_Odd d) as [[d' E]|O].
    + subst d. destruct (IH d') as [i [I ->]]; [lia| |exists (i + 1); split; [lia|]; rewrite Z.pow_add_r by lia; lia].
      destruct H as [q H]. exists q. nia.
    + assert (R : rel_prime d 2). { apply Zgcd_1_rel_prime. pose proof (Z.gcd_divide_l d 2) as A. pose proof (Z.gcd_divide_r d 2) as B. pose proof (Z.gcd_nonneg d 2).
        apply (prime_divisors 2 prime_2) in B. destruct B as [B|[B|[B|B]]]; try lia. rewrite B in A. destruct A as [q A]. destruct O as [r O]. lia. }
      apply (Gauss _ _ _ H) in R. destruct (IH d D R) as [i [I E]]. exists i. split; [lia|auto].
Qed.
Lemma modulus_pos : 0 < hash_modulus.
Proof. reflexivity. Qed.
Lemma pow61 : 2 ^ 61 = hash_modulus + 1.
Proof. reflexivity. Qed.
Lemma hash_dyadic : forall q n k j, 0 <= j <= 60 -> 0 <= k < 2 ^ j -> 0 <= n -> n + 1 < 2 ^ (61 - j) -> (q == inject_Z n + inject_Z k / inject_Z (2 ^ j))%Q ->
  py_hash q = n + k * 2 ^ (61 - j).
Proof.
  intros q n k j J K N NB E. assert (PJ : 0 < 2 ^ j) by (apply Z.pow_pos_nonneg; lia).
  set (r := Qred q). assert (ER : (r == inject_Z n + inject_Z k / inject_Z (2 ^ j))%Q) by (unfold r; rewrite Qred_correct; exact E).
  assert (X : Qnum r * 2 ^ j = (n * 2 ^ j + k) * Zpos (Qden r)).
  { assert (Y : (r * inject_Z (2 ^ j) == inject_Z (n * 2 ^ j + k))%Q).
    { rewrite ER, inject_Z_plus, inject_Z_mult. field. intros Z0. unfold Qeq in Z0. cbn in Z0. lia. }
    unfold Qeq in Y. cbn in Y. lia. }
  assert (G : Z.gcd (Qnum r) (Zpos (Qden r)) = 1).
  { unfold r. unfold Qred. destruct q as [a b]. pose proof (Z.ggcd_gcd a (Zpos b)) as G1. pose proof (Z.ggcd_correct_divisors a (Zpos b)) as G2. pose proof (Z.gcd_nonneg a (Zpos b)).
    destruct (Z.ggcd a (Zpos b)) as [g [aa bb]]. cbn [fst snd] in *. destruct G2 as [G2 G3]. cbn [Qnum Qden].
    assert (g <> 0) by (intros ->; lia). assert (0 < bb) by nia. rewrite Z2Pos.id by auto.
    assert (GG : g * Z.gcd aa bb = g). { rewrite <- Z.gcd_mul_mono_l_nonneg by lia. rewrite <- G2, <- G3. auto. } nia. }
  assert (DV : (Zpos (Qden r) | 2 ^ j)).
  { apply (Gauss _ (Qnum r)); [exists (n * 2 ^ j + k); lia|]. apply Zgcd_1_rel_prime. rewrite Z.gcd_comm. exact G. }
  rewrite <- (Z2Nat.id j) in DV by lia. apply divides_pow2 in DV; [|lia]. rewrite Z2Nat.id in DV by lia. destruct DV as [i [I D]].
  assert (PI : 0 < 2 ^ i) by (apply Z.pow_pos_nonneg; lia).
  unfold py_hash. cbv zeta. fold r. rewrite D. rewrite inverse_table by lia.
  assert (NUM : Qnum r * 2 ^ (j - i) = n * 2 ^ j + k).
  { rewrite D in X. replace (2 ^ j) with (2 ^ (j - i) * 2 ^ i) in X at 1 by (rewrite <- Z.pow_add_r by lia; f_equal; lia). nia. }
  assert (NN : 0 <= Qnum r). { assert (0 < 2 ^ (j - i)) by (apply Z.pow_pos_nonneg; lia). nia. }
  rewrite Z.abs_eq by lia. rewrite Z.mul_mod_idemp_r by (pose proof modulus_pos; lia).
  assert (V : Qnum r * 2 ^ (61 - i) = (n + k * 2 ^ (61 - j)) + n * hash_modulus).
  { replace (61 - i) with ((j - i) + (61 - j)) by lia. rewrite Z.pow_add_r, Z.mul_assoc, NUM by lia.
    replace ((n * 2 ^ j + k) * 2 ^ (61 - j)) with (n * (2 ^ j * 2 ^ (61 - j)) + k * 2 ^ (61 - j)) by ring. rewrite <- Z.pow_add_r by lia. replace (j + (61 - j)) with 61 by lia. rewrite pow61. ring. }
  assert (B : 0 <= n + k * 2 ^ (61 - j) < hash_modulus).
  { split; [nia|]. assert (P61 : 2 ^ j * 2 ^ (61 - j) = hash_modulus + 1) by (rewrite <- Z.pow_add_r by lia; replace (j + (61 - j)) with 61 by lia; exact pow61). nia. }
  rewrite V, Z.mod_add, (Z.mod_small _ _ B) by (pose proof modulus_pos; lia).
  assert (DM : 2 ^ i mod hash_modulus <> 0).
  { assert (2 ^ i < hash_modulus) by (apply Z.le_lt_trans with (2 ^ 60); [apply Z.pow_le_mono_r; lia|reflexivity]). rewrite Z.mod_small by lia. lia. }
  destruct (Z.eqb_spec (2 ^ i mod hash_modulus) 0); [contradiction|]. destruct (Z.ltb_spec (Qnum r) 0); [lia|].
  destruct (Z.eqb_spec (n + k * 2 ^ (61 - j)) (-1)); [lia|]. reflexivity.
Qed.
Definition frac (q : Q) : Q := (q - inject_Z (Qfloor q))%Q.
(** The numerator of a dyadic time is small enough. *)
Definition dyadic (j : Z) (q : Q) : Prop := (exists m, (q * inject_Z (2 ^ j) == inject_Z m)%Q) /\ (0 <= q)%Q /\ Qfloor q + 1 < 2 ^ (61 - j).
Lemma dyadic_parts : forall j q, 0 <= j -> dyadic j q -> exists k, 0 <= k < 2 ^ j /\ (frac q == inject_Z k / inject_Z (2 ^ j))%Q /\ 0 <= Qfloor q /\ (q == inject_Z (Qfloor q) + inject_Z k / inject_Z (2 ^ j))%Q.
Proof.
  intros j q J [[m M] [P B]]. assert (PJ : 0 < 2 ^ j) by (apply Z.pow_pos_nonneg; lia). destruct (Qfloor_bounds q) as [F1 F2].
  assert (PQ : (0 < inject_Z (2 ^ j))%Q) by (rewrite <- (Zlt_Qlt 0); auto).
  assert (NZ : ~ (inject_Z (2 ^ j) == 0)%Q) by lra.
  set (k := m - Qfloor q * 2 ^ j). assert (EK : (inject_Z k == (q - inject_Z (Qfloor q)) * inject_Z (2 ^ j))%Q).
  { unfold k. unfold Zminus. rewrite inject_Z_plus, inject_Z_opp, inject_Z_mult, <- M. ring. }
  exists k. split; [|split; [|split]].
  - split; [rewrite Zle_Qle|rewrite Zlt_Qlt]; rewrite EK.
    + change (inject_Z 0) with 0%Q. apply Qmult_le_0_compat; lra.
    + setoid_replace (inject_Z (2 ^ j)) with (1 * inject_Z (2 ^ j))%Q at 2 by ring. apply Qmult_lt_r; auto. lra.
  - unfold frac. rewrite EK. field. exact NZ.
  - apply Z.lt_succ_r. rewrite Zlt_Qlt. unfold Z.succ. rewrite inject_Z_plus. change (inject_Z 0) with 0%Q. change (inject_Z 1) with 1%Q. lra.
  - rewrite EK. field. exact NZ.
Qed.
Lemma hash_order : forall j q1 q2, 0 <= j <= 60 -> dyadic j q1 -> dyadic j q2 ->
  (py_hash q1 < py_hash q2 <-> (frac q1 < frac q2)%Q \/ ((frac q1 == frac q2)%Q /\ Qfloor q1 < Qfloor q2)).
Proof.
  intros j q1 q2 J D1 D2. destruct (dyadic_parts j q1 ltac:(lia) D1) as [k1 [K1 [E1 [N1 V1]]]]. destruct (dyadic_parts j q2 ltac:(lia) D2) as [k2 [K2 [E2 [N2 V2]]]].
  destruct D1 as [_ [_ B1]]. destruct D2 as [_ [_ B2]].
  rewrite (hash_dyadic q1 _ _ j J K1 N1 B1 V1), (hash_dyadic q2 _ _ j J K2 N2 B2 V2). rewrite E1, E2.
  assert (PJ : 0 < 2 ^ j) by (apply Z.pow_pos_nonneg; lia). assert (PQ : (0 < / inject_Z (2 ^ j))%Q) by (apply Qinv_lt_0_compat; rewrite <- (Zlt_Qlt 0); auto).
  assert (LT : forall a b, (inject_Z a / inject_Z (2 ^ j) < inject_Z b / inject_Z (2 ^ j))%Q <-> a < b) by (intros; unfold Qdiv; rewrite Qmult_lt_r by auto; rewrite <- Zlt_Qlt; tauto).
  assert (EQ : forall a b, (inject_Z a / inject_Z (2 ^ j) == inject_Z b / inject_Z (2 ^ j))%Q <-> a = b).
  { intros a b. split; [|intros ->; reflexivity]. intros H. assert (~ a < b) by (rewrite <- LT; lra). assert (~ b < a) by (rewrite <- LT; lra). lia. }
  rewrite LT, EQ. set (p := 2 ^ (61 - j)) in *. split.
  - intros H. destruct (Z.lt_trichotomy k1 k2) as [L|[L|L]]; [auto|subst; right; split; [auto|lia]|]. exfalso. nia.
  - intros [L|[-> L]]; [nia|lia].
Qed.
Lemma py_hash_eq : forall a b, (a == b)%Q -> py_hash a = py_hash b.
Proof. intros a b H. unfold py_hash. rewrite (Qred_complete a b H). reflexivity. Qed.
(** The groups are visited by ascending key. *)
Lemma groups_order : forall key notes gs n1 n2, groups_of key false notes gs -> In n1 notes -> In n2 notes -> sounding n1 -> sounding n2 -> key n1 < key n2 ->
  exists l1 g1 l2 g2 l3, gs = l1 ++ g1 :: l2 ++ g2 :: l3 /\ In n1 g1 /\ In n2 g2.
Proof.
  intros key notes gs n1 n2 [ks [ST [F [A B]]]] I1 I2 S1 S2 LT. destruct (groups_keys key false notes gs ks ST F A B) as [-> _].
  pose proof (A n1 I1 S1 eq_refl) as K1. pose proof (A n2 I2 S2 eq_refl) as K2.
  apply in_split in K1 as [a [b ->]]. assert (K3 : In (key n2) b).
  { apply in_app_or in K2 as [K2|[K2|K2]]; [|lia|auto]. exfalso. clear - ST K2 LT. induction a as [|x a IH]; [destruct K2|]. inversion ST as [|x0 l0 ST1 F1]; subst. rewrite Forall_forall in F1. destruct K2 as [->|K2]; [|auto].
    assert (key n2 < key n1) by (apply F1; apply in_or_app; right; left; auto). lia. }
  apply in_split in K3 as [c [d ->]]. exists (map (fun k => members key k notes) a), (members key (key n1) notes), (map (fun k => members key k notes) c), (members key (key n2) notes), (map (fun k => members key k notes) d).
  split; [rewrite !map_app; cbn [map]; rewrite !map_app; reflexivity|]. split; apply members_In; auto.
Qed.
