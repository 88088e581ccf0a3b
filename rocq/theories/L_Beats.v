(** Lemmas about M_Beats: one step of the beat loop. *)
From Coq Require Import Sorted Permutation Lia Lqa Qfield.
From Verif Require Import PyBase M_Beats S_Beats L_Base.
Open Scope Q_scope.

(** ** small facts *)
Lemma close_spec : forall a b, np_isclose a b = true <-> close a b.
Proof. intros a b. unfold np_isclose, close. apply Qle_bool_iff. Qed.
Lemma Qabsb_cases : forall a, (0 <= a /\ Qabsb a = a) \/ (a < 0 /\ Qabsb a = - a).
Proof. exact Qabsb_spec. Qed.
Lemma gtc_false : forall a b, gt_or_close a b = false -> a < b /\ ~ close a b.
Proof.
  intros a b H. unfold gt_or_close in H. apply orb_false_iff in H as [H1 H2]. apply Qltb_ge in H1. assert (N : ~ close a b) by (intro C; apply close_spec in C; congruence). split; auto.
  destruct (Qlt_le_dec a b) as [L|L]; auto. exfalso. apply N. unfold close. destruct (Qabsb_cases (a - b)) as [[A ->]|[A ->]]; destruct (Qabsb_cases b) as [[B ->]|[B ->]]; lra.
Qed.
Lemma gtc_true : forall a b, gt_or_close a b = true -> b <= a \/ (a < b /\ close a b).
Proof.
  intros a b H. unfold gt_or_close in H. apply orb_true_iff in H as [H|H].
  - apply Qltb_lt in H. left. lra.
  - destruct (Qlt_le_dec a b) as [L|L]; auto. right. split; auto. apply close_spec. auto.
Qed.
Lemma close_between : forall a t b, close a b -> a <= t -> t < b -> close t b.
Proof. intros a t b C L1 L2. unfold close in *. destruct (Qabsb_cases (a - b)) as [[A EA]|[A EA]]; rewrite EA in C; destruct (Qabsb_cases (t - b)) as [[B EB]|[B EB]]; rewrite EB; lra. Qed.
Lemma close_self : forall a, close a a.
Proof. intro a. unfold close. destruct (Qabsb_cases (a - a)) as [[A ->]|[A ->]]; destruct (Qabsb_cases a) as [[B ->]|[B ->]]; lra. Qed.

(** bpm is a positive multiple of the tempo. *)
Definition rate (sig : option tsig) : Q := bpm_of sig 1.
Lemma bpm_rate : forall sig q, bpm_of sig q == rate sig * q.
Proof.
  intros [s|] q; unfold rate; cbn [bpm_of]; [|ring]. unfold qpm_to_bpm. destruct (existsb _ _); [|ring].
  destruct (ts_num s =? 3)%Z; [field|]. destruct (ts_num s mod 3 =? 0)%Z; field.
Qed.
Definition good (sig : option tsig) : Prop := match sig with Some s => (0 < ts_num s)%Z /\ (0 < ts_den s)%Z | None => True end.
Lemma rate_pos : forall sig, good sig -> 0 < rate sig.
Proof.
  intros [s|] G; unfold rate; cbn [bpm_of]; [|lra]. cbn in G. destruct G as [G1 G2]. unfold qpm_to_bpm.
  assert (D : 0 < inject_Z (ts_den s)) by (replace 0 with (inject_Z 0) by reflexivity; rewrite <- Zlt_Qlt; auto).
  assert (D4 : 0 < 1 * inject_Z (ts_den s) / 4) by (apply Qlt_shift_div_l; lra).
  assert (D12 : 0 < 1 / 3 * inject_Z (ts_den s) / 4) by (setoid_replace (1 / 3 * inject_Z (ts_den s) / 4) with (inject_Z (ts_den s) / 12) by field; apply Qlt_shift_div_l; lra).
  destruct (existsb _ _); [|lra]. destruct (ts_num s =? 3)%Z; auto. destruct (ts_num s mod 3 =? 0)%Z; auto.
Qed.
Lemma rate_spec : forall s k, beats_per_quarter s k -> rate (Some s) == k.
Proof.
  intros s k [A [B C]]. unfold rate; cbn [bpm_of]. unfold qpm_to_bpm. destruct (existsb (Z.eqb (ts_den s)) [1; 2; 4; 8; 16; 32]%Z) eqn:E.
  - assert (U : usual (ts_den s)). { apply existsb_exists in E as [x [I X]]. apply Z.eqb_eq in X. subst x. exact I. }
    destruct (Z.eqb_spec (ts_num s) 3) as [E3|E3].
    + rewrite B; auto. { field. } intros [_ N]. auto.
    + destruct (Z.eqb_spec (ts_num s mod 3) 0) as [M|M].
      * rewrite A; auto; [field|]. split; auto. exists (ts_num s / 3)%Z. rewrite (Z_div_mod_eq_full (ts_num s) 3) at 1. lia.
      * rewrite B; auto; [field|]. intros [[x X] _]. apply M. rewrite X. rewrite Z.mul_comm. apply Z_mod_mult.
  - symmetry. apply C. intro U. assert (existsb (Z.eqb (ts_den s)) [1; 2; 4; 8; 16; 32]%Z = true); [|congruence]. apply existsb_exists. exists (ts_den s). split; auto. apply Z.eqb_refl.
Qed.

(** ** musical time *)
Lemma quarters_compat : forall rest q a a' b b', a == a' -> b == b' -> quarters_from q rest a b == quarters_from q rest a' b'.
Proof.
  induction rest as [|[t q'] r IH]; intros q a a' b b' E F; cbn [quarters_from]; [rewrite E, F; reflexivity|].
  destruct (Qle_bool t a) eqn:A.
  - apply Qle_bool_iff in A. assert (A' : Qle_bool t a' = true) by (apply Qle_bool_iff; lra). rewrite A'. apply IH; auto.
  - apply Qle_bool_false in A. assert (A' : Qle_bool t a' = false) by (apply Qle_bool_false; lra). rewrite A'.
    destruct (Qle_bool b t) eqn:B.
    + apply Qle_bool_iff in B. assert (B' : Qle_bool b' t = true) by (apply Qle_bool_iff; lra). rewrite B'. rewrite E, F. reflexivity.
    + apply Qle_bool_false in B. assert (B' : Qle_bool b' t = false) by (apply Qle_bool_false; lra). rewrite B'. rewrite (IH q' t t b b'), E; auto; reflexivity.
Qed.
Lemma quarters_empty : forall rest q a b, a == b -> quarters_from q rest a b == 0.
Proof.
  induction rest as [|[t q'] r IH]; intros q a b E; cbn [quarters_from]; [rewrite E; field|]. destruct (Qle_bool t a) eqn:A; [apply IH; auto|]. apply Qle_bool_false in A.
  destruct (Qle_bool b t) eqn:B; [rewrite E; field|]. apply Qle_bool_false in B. lra.
Qed.

(** ** a beat by tempo *)
Definition tempi_ok (q : Q) (rest : list (Q * Q)) : Prop := 0 < q /\ forall c, In c rest -> 0 < snd c.
Definition later (last : Q) (rest : list (Q * Q)) : Prop := forall c, In c rest -> last <= fst c.
Definition sortedt (rest : list (Q * Q)) : Prop := StronglySorted (fun a b => fst a <= fst b) rest.

Lemma mul_mono : forall r a b, 0 <= r -> a <= b -> r * a <= r * b.
Proof. intros r a b R L. rewrite (Qmult_comm r a), (Qmult_comm r b). apply Qmult_le_compat_r; auto. Qed.
Lemma cross_spec : forall sig rest nb rem q, good sig -> tempi_ok q rest -> sortedt rest -> later nb rest -> 0 <= rem ->
  forall nb' q' rest', cross (bpm_of sig) nb rem q rest = (nb', (q', rest')) ->
  tempi_ok q' rest' /\ sortedt rest' /\ later nb' rest' /\ nb <= nb' /\ incl rest' rest /\ (q' = q \/ In q' (map snd rest)) /\
  rate sig * quarters_from q rest nb nb' == rem /\
  (forall d, (forall x, x = q \/ In x (map snd rest) -> d <= 60 / bpm_of sig x) -> nb + rem * d <= nb') /\
  (forall a b, nb' <= a -> quarters_from q rest a b == quarters_from q' rest' a b).
Proof.
  intros sig. induction rest as [|[t q1] r IH]; intros nb rem q G TK ST LT RP nb' q' rest' E; cbn [cross] in E.
  - injection E as <- <- <-. destruct TK as [QP TK]. pose proof (rate_pos sig G) as RT. pose proof (bpm_rate sig q) as BR. assert (BP : 0 < bpm_of sig q) by (rewrite BR; apply Qmult_lt_0_compat; auto).
    remember (bpm_of sig q) as B eqn:EB. assert (P : 0 <= 60 / B) by (apply Qle_shift_div_l; lra).
    assert (X : rem * 60 / B == rem * (60 / B)) by (field; lra). assert (Y : 0 <= rem * (60 / B)) by (apply Qmult_le_0_compat; auto).
    split; [split; auto|]. split; [auto|]. split; [intros c []|]. split; [lra|]. split; [apply incl_refl|]. split; [auto|]. split; [|split].
    + cbn [quarters_from]. setoid_replace (rate sig * (q * (nb + rem * 60 / B - nb) / 60)) with ((rate sig * q) * rem / B) by (field; lra). rewrite <- BR. field. lra.
    + intros d D. specialize (D q (or_introl eq_refl)). rewrite <- EB in D. rewrite X. apply Qplus_le_compat; [lra|]. apply mul_mono; auto.
    + intros; reflexivity.
  - pose proof (rate_pos sig G) as RT. pose proof (bpm_rate sig q) as BR. assert (BP : 0 < bpm_of sig q) by (rewrite BR; apply Qmult_lt_0_compat; auto; apply TK).
    destruct (Qle_bool t (nb + rem * 60 / bpm_of sig q)) eqn:C.
    + apply Qle_bool_iff in C. apply StronglySorted_inv in ST as [ST1 ST2]. rewrite Forall_forall in ST2.
      assert (NT : nb <= t) by (apply (LT (t, q1)); left; auto).
      remember (bpm_of sig q) as B eqn:EB. assert (E1 : nb + (t - nb) / (60 / B) * 60 / B == t) by (field; lra).
      assert (E2 : (t - nb) / (60 / B) == (t - nb) * B / 60) by (field; lra).
      assert (RP' : 0 <= rem - (t - nb) / (60 / B)).
      { rewrite E2. assert (X : (t - nb) * B / 60 <= rem); [|lra]. apply Qle_shift_div_r; [lra|]. assert (Y : t - nb <= rem * 60 / B) by lra. apply (Qmult_le_compat_r _ _ B) in Y; [|lra].
        setoid_replace (rem * 60 / B * B) with (rem * 60) in Y by (field; lra). lra. }
      destruct TK as [QP TK].
      destruct (fun a b c => IH (nb + (t - nb) / (60 / B) * 60 / B) (rem - (t - nb) / (60 / B)) q1 G a b c RP' nb' q' rest' E) as [A1 [A2 [A3 [A4 [A5 [A6 [A7 [A8 A9]]]]]]]].
      { split; [apply (TK (t, q1)); left; auto|]. intros c I. apply TK. right. auto. } { auto. } { intros c I. rewrite E1. apply (ST2 c I). }
      rewrite E1 in A4. split; auto. split; auto. split; auto. split; [lra|]. split; [intros x I; right; auto|]. split; [destruct A6 as [->|A6]; right; [left; auto|right; auto]|].
      split; [|split].
      * cbn [quarters_from]. destruct (Qle_bool t nb) eqn:L.
        { apply Qle_bool_iff in L. assert (N : nb == t) by lra. rewrite (quarters_compat r q1 nb (nb + (t - nb) / (60 / B) * 60 / B) nb' nb') by (try reflexivity; rewrite E1; auto). rewrite A7, E2, N. field. }
        apply Qle_bool_false in L. destruct (Qle_bool nb' t) eqn:M.
        { apply Qle_bool_iff in M. assert (N : nb' == t) by lra. rewrite (quarters_empty r q1 _ nb') in A7 by (rewrite E1; lra). rewrite Qmult_0_r in A7.
          assert (Z : rem == (t - nb) * B / 60) by lra. rewrite Z, N. rewrite BR. field. }
        rewrite Qmult_plus_distr_r. rewrite (quarters_compat r q1 t (nb + (t - nb) / (60 / B) * 60 / B) nb' nb') by (try reflexivity; rewrite E1; reflexivity).
        rewrite A7, E2. rewrite BR. field.
      * intros d D. assert (D' : nb + (t - nb) / (60 / B) * 60 / B + (rem - (t - nb) / (60 / B)) * d <= nb').
        { apply A8. intros x X. apply D. right. destruct X as [->|X]; [left; auto|right; auto]. }
        rewrite E1 in D'. specialize (D q (or_introl eq_refl)). rewrite <- EB in D.
        assert (Z : (t - nb) / (60 / B) * d <= t - nb).
        { rewrite E2. assert (W : 0 <= (t - nb) * B / 60) by (apply Qle_shift_div_l; [lra|]; rewrite Qmult_0_l; apply Qmult_le_0_compat; lra).
          apply (Qmult_le_compat_r _ _ ((t - nb) * B / 60)) in D; auto. setoid_replace (60 / B * ((t - nb) * B / 60)) with (t - nb) in D by (field; lra). lra. }
        lra.
      * intros a b Hb. cbn [quarters_from]. assert (L : Qle_bool t a = true) by (apply Qle_bool_iff; lra). rewrite L. apply A9. auto.
    + apply Qle_bool_false in C. injection E as <- <- <-. destruct TK as [QP TK]. remember (bpm_of sig q) as B eqn:EB.
      assert (P : 0 <= 60 / B) by (apply Qle_shift_div_l; lra). assert (X : rem * 60 / B == rem * (60 / B)) by (field; lra). assert (Y : 0 <= rem * (60 / B)) by (apply Qmult_le_0_compat; auto).
      split; [split; auto|]. split; [auto|]. split; [|split; [lra|]].
      { intros c I. destruct I as [<-|I]; cbn [fst]; [lra|]. apply StronglySorted_inv in ST as [_ ST]. rewrite Forall_forall in ST. specialize (ST c I). cbn [fst] in ST. lra. }
      split; [apply incl_refl|]. split; [auto|]. split; [|split].
      * cbn [quarters_from]. assert (L : Qle_bool t nb = false) by (apply Qle_bool_false; lra). rewrite L.
        assert (M : Qle_bool (nb + rem * 60 / B) t = true) by (apply Qle_bool_iff; lra). rewrite M.
        setoid_replace (rate sig * (q * (nb + rem * 60 / B - nb) / 60)) with ((rate sig * q) * rem / B) by (field; lra). rewrite <- BR. field. lra.
      * intros d D. specialize (D q (or_introl eq_refl)). rewrite <- EB in D. rewrite X. apply Qplus_le_compat; [lra|]. apply mul_mono; auto.
      * intros; reflexivity.
Qed.

Lemma tempo_beat_spec : forall sig rest last q, good sig -> tempi_ok q rest -> sortedt rest -> later last rest ->
  forall nb q' rest', tempo_beat (bpm_of sig) last q rest = (nb, (q', rest')) ->
  tempi_ok q' rest' /\ sortedt rest' /\ later nb rest' /\ incl rest' rest /\ (q' = q \/ In q' (map snd rest)) /\
  rate sig * quarters_from q rest last nb == 1 /\
  (forall d, (forall x, x = q \/ In x (map snd rest) -> d <= 60 / bpm_of sig x) -> last + d <= nb) /\
  (forall a b, nb <= a -> quarters_from q rest a b == quarters_from q' rest' a b) /\ last < nb.
Proof.
  intros sig rest last q G TK ST LT nb q' rest' E.
  pose proof (rate_pos sig G) as RT. pose proof (bpm_rate sig q) as BR. assert (BP : 0 < bpm_of sig q) by (rewrite BR; apply Qmult_lt_0_compat; auto; apply TK).
  assert (PP : 0 < 60 / bpm_of sig q) by (apply Qlt_shift_div_l; lra).
  assert (M : (forall d, (forall x, x = q \/ In x (map snd rest) -> d <= 60 / bpm_of sig x) -> last + d <= nb) -> last < nb).
  { intro H. assert (D : exists d, 0 < d /\ forall x, x = q \/ In x (map snd rest) -> d <= 60 / bpm_of sig x).
    { destruct TK as [_ TK]. clear - G TK PP. induction rest as [|[t q1] r IH].
      - exists (60 / bpm_of sig q). split; auto. intros x [->|[]]. lra.
      - destruct IH as [d [D1 D2]]. { intros c I. apply TK. right. auto. }
        assert (Q1 : 0 < 60 / bpm_of sig q1). { apply Qlt_shift_div_l; [|lra]. rewrite bpm_rate. apply Qmult_lt_0_compat; [apply rate_pos; auto|]. apply (TK (t, q1)). left. auto. }
        exists (Qminb d (60 / bpm_of sig q1)). destruct (Qminb_spec d (60 / bpm_of sig q1)) as [[A ->]|[A ->]]; (split; [lra|]); intros x [X|[X|X]].
        + apply D2; auto. + cbn in X. subst x. lra. + apply D2; auto.
        + specialize (D2 x (or_introl X)). lra. + cbn in X. subst x. lra. + specialize (D2 x (or_intror X)). lra. }
    destruct D as [d [D1 D2]]. specialize (H d D2). lra. }
  assert (SIMPLE : nb = last + 60 / bpm_of sig q -> q' = q -> rest' = rest -> later nb rest -> rate sig * quarters_from q rest last nb == 1 ->
    tempi_ok q' rest' /\ sortedt rest' /\ later nb rest' /\ incl rest' rest /\ (q' = q \/ In q' (map snd rest)) /\
    rate sig * quarters_from q rest last nb == 1 /\
    (forall d, (forall x, x = q \/ In x (map snd rest) -> d <= 60 / bpm_of sig x) -> last + d <= nb) /\
    (forall a b, nb <= a -> quarters_from q rest a b == quarters_from q' rest' a b) /\ last < nb).
  { intros -> -> -> L Z. assert (D : forall d, (forall x, x = q \/ In x (map snd rest) -> d <= 60 / bpm_of sig x) -> last + d <= last + 60 / bpm_of sig q).
    { intros d D. specialize (D q (or_introl eq_refl)). lra. }
    split; auto. split; auto. split; auto. split; [apply incl_refl|]. split; auto. split; auto. split; auto. split; [intros; reflexivity|lra]. }
  unfold tempo_beat in E. destruct rest as [|[t q1] r].
  - injection E as E1 E2 E3. apply SIMPLE; auto. { intros c []. } cbn [quarters_from]. rewrite <- E1.
    setoid_replace (rate sig * (q * (last + 60 / bpm_of sig q - last) / 60)) with ((rate sig * q) / bpm_of sig q) by (field; lra). rewrite <- BR. field. lra.
  - destruct (Qltb t (last + 60 / bpm_of sig q)) eqn:C.
    + destruct (cross_spec sig ((t, q1) :: r) last 1 q G TK ST LT ltac:(lra) nb q' rest' E) as [A1 [A2 [A3 [A4 [A5 [A6 [A7 [A8 A9]]]]]]]].
      assert (D : forall d, (forall x, x = q \/ In x (map snd ((t, q1) :: r)) -> d <= 60 / bpm_of sig x) -> last + d <= nb).
      { intros d D. specialize (A8 d D). lra. }
      split; auto 12.
    + apply Qltb_ge in C. injection E as E1 E2 E3. apply SIMPLE; auto.
      { rewrite <- E1. intros c [<-|I]; cbn [fst]; auto. apply StronglySorted_inv in ST as [_ ST]. rewrite Forall_forall in ST. specialize (ST c I). cbn [fst] in ST. lra. }
      cbn [quarters_from]. rewrite <- E1. assert (L : Qle_bool t last = false) by (apply Qle_bool_false; lra). rewrite L.
      assert (MM : Qle_bool (last + 60 / bpm_of sig q) t = true) by (apply Qle_bool_iff; lra). rewrite MM.
      setoid_replace (rate sig * (q * (last + 60 / bpm_of sig q - last) / 60)) with ((rate sig * q) / bpm_of sig q) by (field; lra). rewrite <- BR. field. lra.
Qed.
