(** Signatures of a read file. *)
From Coq Require Import Sorted Permutation Lia Lqa QArith.
From Verif Require Import PyBase L_Base M_SortedDict M_Note M_Events M_Seq M_Seqs S_Note S_Seqs L_Events L_Sigs L_Seqs M_Reader S_Reader L_Reader.
Open Scope Z_scope.

Definition key_entry (k : Z * Q) : Q * (Z * bool) := (snd k, (fst k mod 12, fst k / 12 =? 1)).
Definition time_entry (t : Z * Z * Q) : Q * (Z * Z) := (snd t, fst t).
Lemma sig_run_cons : forall A (l l' : list (sig A)) t d r, sig_add l t d = (Ok tt, l') -> sig_run l ((t, d) :: r) = sig_run l' r.
Proof. intros A l l' t d r E. unfold sig_run. cbn [fold_left fst snd]. rewrite E. reflexivity. Qed.

Lemma mode_range : forall k, (k / 12 =? 0) || (k / 12 =? 1) = true <-> 0 <= k < 24.
Proof.
  intros k. pose proof (Z.div_mod k 12 ltac:(lia)). pose proof (Z.mod_pos_bound k 12 ltac:(lia)).
  destruct (Z.eqb_spec (k / 12) 0); destruct (Z.eqb_spec (k / 12) 1); cbn; split; intros; try congruence; lia.
Qed.
Lemma read_keys_run : forall ks l, l <> [] ->
  (Forall (fun k => 0 <= fst k < 24) ks -> read_keys l ks = Ok (sig_run l (map key_entry ks))) /\
  (~ Forall (fun k => 0 <= fst k < 24) ks -> read_keys l ks = Err ValueError).
Proof.
  induction ks as [|[k t] ks IH]; intros l H; cbn [read_keys map]; [split; [auto|intros N; exfalso; apply N; constructor]|].
  destruct (sig_add_ok _ l t (k mod 12, k / 12 =? 1) H) as [l' [E [N _]]].
  destruct ((k / 12 =? 0) || (k / 12 =? 1)) eqn:M; cbn [negb].
  - apply mode_range in M. rewrite E. destruct (IH l' N) as [I1 I2]. split; intros F.
    + inversion F; subst. rewrite I1 by auto. f_equal. symmetry. apply sig_run_cons. exact E.
    + apply I2. intros G. apply F. constructor; auto.
  - split; auto. intros F. inversion F as [|? ? Fk Fr]; subst. cbn [fst] in Fk. apply mode_range in Fk. congruence.
Qed.
Lemma read_tempos_run : forall res ts l, l <> [] ->
  (Forall (fun t => (0 < snd t)%Q /\ 0 < res) ts -> read_tempos res l ts = Ok (sig_run l ts)) /\
  (~ Forall (fun t => (0 < snd t)%Q /\ 0 < res) ts -> read_tempos res l ts = Err AssertionError).
Proof.
  intros res. induction ts as [|[t q] ts IH]; intros l H; cbn [read_tempos]; [split; [auto|intros N; exfalso; apply N; constructor]|].
  destruct (sig_add_ok _ l t q H) as [l' [E [N _]]]. unfold tempo_new. destruct (Qle_bool q 0) eqn:Q0.
  { apply Qle_bool_iff in Q0. split; auto. intros F. inversion F as [|? ? Fk Fr]; subst. cbn [snd] in Fk. destruct Fk. exfalso. lra. }
  apply Qle_bool_false in Q0. destruct (Z.leb_spec res 0).
  { split; auto. intros F. inversion F as [|? ? Fk Fr]; subst. destruct Fk. exfalso. lia. }
  rewrite E. destruct (IH l' N) as [I1 I2]. split; intros F.
  - inversion F; subst. rewrite I1 by auto. f_equal. symmetry. apply sig_run_cons. exact E.
  - apply I2. intros G. apply F. constructor; auto.
Qed.
Lemma read_times_run : forall ts l, l <> [] ->
  (Forall (fun t => 0 < fst (fst t) /\ power_of_two (snd (fst t))) ts -> read_times l ts = Ok (sig_run l (map time_entry ts))) /\
  (~ Forall (fun t => 0 < fst (fst t) /\ power_of_two (snd (fst t))) ts -> read_times l ts = Err MidiReaderError).
Proof.
  induction ts as [|[[nu de] t] ts IH]; intros l H; cbn [read_times map]; [split; [auto|intros N; exfalso; apply N; constructor]|].
  destruct (sig_add_ok _ l t (nu, de) H) as [l' [E [N _]]].
  assert (T : (0 < nu /\ power_of_two de) \/ ~ (0 < nu /\ power_of_two de)).
  { destruct (Z.ltb_spec 0 nu) as [A|A]; [|right; intros [B _]; lia]. destruct (Z.ltb_spec 0 de) as [C|C].
    - destruct (Z.eq_dec (2 ^ Z.log2 de) de) as [D|D]; [left|right]; [split; auto; apply pow2_log2; auto|intros [_ B]; apply pow2_log2 in B; auto].
    - right. intros [_ [k [K1 K2]]]. assert (0 < 2 ^ k) by (apply Z.pow_pos_nonneg; lia). lia. }
  destruct T as [T|T].
  - assert (TN : tsig_new t nu de = Ok (mkS t nu de 0)).
    { destruct (Z.ltb_spec 0 de); [|destruct T as [_ [k [K1 K2]]]; assert (0 < 2 ^ k) by (apply Z.pow_pos_nonneg; lia); lia].
      unfold tsig_new. replace (de <=? 0) with false by (symmetry; apply Z.leb_gt; lia). replace (nu <=? 0) with false by (symmetry; apply Z.leb_gt; lia).
      cbn [orb]. replace (2 ^ Z.log2 de) with de by (symmetry; apply pow2_log2; tauto). rewrite Z.eqb_refl. reflexivity. }
    rewrite TN, E. destruct (IH l' N) as [I1 I2]. split; intros F.
    + inversion F; subst. rewrite I1 by auto. f_equal. symmetry. apply sig_run_cons. exact E.
    + apply I2. intros G. apply F. constructor; auto.
  - assert (TN : tsig_new t nu de = Err ValueError).
    { unfold tsig_new. destruct (Z.leb_spec de 0); auto. destruct (Z.leb_spec nu 0); auto. cbn [orb].
      destruct (Z.eqb_spec (2 ^ Z.log2 de) de); auto. exfalso. apply T. split; [lia|]. apply pow2_log2; auto. }
    rewrite TN. split; auto. intros F. inversion F; subst. exfalso. apply T. auto.
Qed.

Lemma read_sigs : forall f so, read f = Ok so ->
  so_keys so = sig_run (sig_default (0, false)) (map key_entry (mf_keys f)) /\
  so_tempos so = sig_run (sig_default 120%Q) (mf_tempos f) /\
  so_times so = sig_run (sig_default (4, 4)) (map time_entry (mf_times f)) /\
  Forall (fun k => 0 <= fst k < 24) (mf_keys f) /\ Forall (fun t => (0 < snd t)%Q /\ 0 < mf_res f) (mf_tempos f) /\
  Forall (fun t => 0 < fst (fst t) /\ power_of_two (snd (fst t))) (mf_times f).
Proof.
  intros f so H. unfold read in H.
  destruct (read_keys_run (mf_keys f) (sig_default (0, false))) as [K1 K2]; [discriminate|].
  destruct (read_tempos_run (mf_res f) (mf_tempos f) (sig_default (inject_Z DEFAULT_QPM))) as [T1 T2]; [discriminate|].
  destruct (read_times_run (mf_times f) (sig_default (4, 4))) as [M1 M2]; [discriminate|].
  assert (DK : Forall (fun k : Z * Q => 0 <= fst k < 24) (mf_keys f) \/ ~ Forall (fun k => 0 <= fst k < 24) (mf_keys f)).
  { destruct (Forall_dec (fun k : Z * Q => 0 <= fst k < 24)) with (l := mf_keys f) as [A|A]; auto.
    intros x. destruct (Z_le_dec 0 (fst x)); [destruct (Z_lt_dec (fst x) 24)|]; [left|right|right]; lia. }
  destruct DK as [DK|DK]; [rewrite (K1 DK) in H|rewrite (K2 DK) in H; discriminate H]. cbn [bind] in H.
  assert (E : forall x, read_tempos (mf_res f) (sig_default (inject_Z DEFAULT_QPM)) (mf_tempos f) = Ok x ->
    x = sig_run (sig_default (inject_Z DEFAULT_QPM)) (mf_tempos f) /\ Forall (fun t => (0 < snd t)%Q /\ 0 < mf_res f) (mf_tempos f)).
  { intros x X.
    assert (D : forall t : Q * Q, {(0 < snd t)%Q /\ 0 < mf_res f} + {~ ((0 < snd t)%Q /\ 0 < mf_res f)}).
    { intros [a b]. cbn [snd]. destruct (Qlt_le_dec 0 b); [destruct (Z_lt_dec 0 (mf_res f))|]; [left; auto|right|right]; intros [? ?]; [contradiction|lra]. }
    destruct (Forall_dec _ D (mf_tempos f)) as [A|A].
    - rewrite (T1 A) in X. inversion X. auto.
    - rewrite (T2 A) in X. discriminate X. }
  destruct (read_tempos (mf_res f) _ (mf_tempos f)) as [ts|e]; [|discriminate H]. destruct (E ts eq_refl) as [-> FT]. cbn [bind] in H. clear E.
  destruct (read_times (sig_default (4, 4)) (mf_times f)) as [tm|e] eqn:RT; [|discriminate H]. cbn [bind] in H.
  assert (FM : Forall (fun t => 0 < fst (fst t) /\ power_of_two (snd (fst t))) (mf_times f)).
  { assert (D : forall t : Z * Z * Q, {0 < fst (fst t) /\ power_of_two (snd (fst t))} + {~ (0 < fst (fst t) /\ power_of_two (snd (fst t)))}).
    { intros [[a b] c]. cbn [fst snd]. destruct (Z_lt_dec 0 a); [|right; intros [? ?]; auto]. destruct (Z_lt_dec 0 b).
      - destruct (Z.eq_dec (2 ^ Z.log2 b) b) as [E|E]; [left; split; auto; apply pow2_log2; auto|right; intros [_ P]; apply pow2_log2 in P; auto].
      - right. intros [_ [k [P1 P2]]]. assert (0 < 2 ^ k) by (apply Z.pow_pos_nonneg; lia). lia. }
    destruct (Forall_dec _ D (mf_times f)) as [A|A]; auto. discriminate (M2 A). }
  pose proof (M1 FM) as X. inversion X; subst tm. clear X.
  destruct (read_notes _ _ _) as [[u|e] [s total]]; [|discriminate H].
  destruct (read_bends total s (mf_insts f)) as [[u1|e1] s1]; [|discriminate H].
  destruct (read_ccs total s1 (mf_insts f)) as [[u2|e2] s2]; [|discriminate H]. inversion H; subst so. cbn.
  split; auto.
Qed.
Lemma read_sig_errors : forall f,
  (~ Forall (fun k => 0 <= fst k < 24) (mf_keys f) -> read f = Err ValueError) /\
  (Forall (fun k => 0 <= fst k < 24) (mf_keys f) ->
   (~ Forall (fun t => (0 < snd t)%Q /\ 0 < mf_res f) (mf_tempos f) -> read f = Err AssertionError) /\
   (Forall (fun t => (0 < snd t)%Q /\ 0 < mf_res f) (mf_tempos f) ->
    ~ Forall (fun t => 0 < fst (fst t) /\ power_of_two (snd (fst t))) (mf_times f) -> read f = Err MidiReaderError)).
Proof.
  intros f. unfold read.
  destruct (read_keys_run (mf_keys f) (sig_default (0, false))) as [K1 K2]; [discriminate|].
  destruct (read_tempos_run (mf_res f) (mf_tempos f) (sig_default (inject_Z DEFAULT_QPM))) as [T1 T2]; [discriminate|].
  destruct (read_times_run (mf_times f) (sig_default (4, 4))) as [M1 M2]; [discriminate|].
  split; [intros X; rewrite (K2 X); reflexivity|]. intros X. rewrite (K1 X). cbn [bind]. split.
  - intros Y. rewrite (T2 Y). reflexivity.
  - intros Y Z0. rewrite (T1 Y). cbn [bind]. rewrite (M2 Z0). reflexivity.
Qed.

Lemma run_lists : forall A (d : A) adds, times_ok (0%Q :: map fst adds) -> lists_signatures d adds (sig_run (sig_default d) adds).
Proof. intros A d adds H. exact (sig_list_spec A d adds H). Qed.
Lemma read_signatures : forall f so, read f = Ok so ->
  (times_ok (0%Q :: map snd (mf_keys f)) -> lists_signatures (0, false) (map (fun k => (snd k, (fst k mod 12, 12 <=? fst k))) (mf_keys f)) (so_keys so)) /\
  (times_ok (0%Q :: map fst (mf_tempos f)) -> lists_signatures 120%Q (mf_tempos f) (so_tempos so)) /\
  (times_ok (0%Q :: map snd (mf_times f)) -> lists_signatures (4, 4) (map (fun t => (snd t, fst t)) (mf_times f)) (so_times so)).
Proof.
  intros f so H. destruct (read_sigs f so H) as (K & T & M & FK & _ & _). rewrite K, T, M. split; [|split]; intros X.
  - replace (map (fun k => (snd k, (fst k mod 12, 12 <=? fst k))) (mf_keys f)) with (map key_entry (mf_keys f)).
    + apply run_lists. rewrite map_map. exact X.
    + apply map_ext_in. intros [k t] I. rewrite Forall_forall in FK. specialize (FK _ I). unfold key_entry. cbn [fst snd] in *. do 2 f_equal.
      pose proof (Z.div_mod k 12 ltac:(lia)). pose proof (Z.mod_pos_bound k 12 ltac:(lia)).
      destruct (Z.eqb_spec (k / 12) 1); destruct (Z.leb_spec 12 k); auto; lia.
  - apply run_lists. exact X.
  - apply run_lists. rewrite map_map. exact X.
Qed.
