(** The tempo map after moving: musical time is conserved. *)
From Coq Require Import Sorted Permutation Lqa Lia.
From Verif Require Import PyBase L_Base M_Note L_Note L_Note2 M_Beats S_Beats L_Beats M_Adjust S_Adjust L_Adjust L_Adjust2.
Open Scope Q_scope.

Ltac ql a := let C := fresh "C" in destruct a eqn:C; [apply Qle_bool_iff in C|apply Qle_bool_false in C].
Lemma quarters_add : forall rest q a b c, a <= b -> b <= c -> quarters_from q rest a c == quarters_from q rest a b + quarters_from q rest b c.
Proof.
  induction rest as [|[t q'] r IH]; intros q a b c H1 H2; cbn [quarters_from]; [field|].
  ql (Qle_bool t a).
  - assert (L : Qle_bool t b = true) by (apply Qle_bool_iff; lra). rewrite L. apply IH; auto.
  - ql (Qle_bool c t).
    + assert (L : Qle_bool b t = true) by (apply Qle_bool_iff; lra). rewrite L. ql (Qle_bool t b).
      * rewrite (quarters_empty r q' b c) by lra. assert (b == c) by lra. rewrite H. field.
      * field.
    + ql (Qle_bool b t).
      * ql (Qle_bool t b).
        -- assert (E : t == b) by lra. rewrite (quarters_compat r q' t b c c) by (auto; reflexivity). rewrite E. reflexivity.
        -- field.
      * assert (L : Qle_bool t b = true) by (apply Qle_bool_iff; lra). rewrite L.
        rewrite (IH q' t b c) by lra. ring.
Qed.
Lemma quarters_skip : forall A B q a b, (forall c, In c A -> fst c <= a) -> quarters_from q (A ++ B) a b = quarters_from (snd (last A (0, q))) B a b.
Proof.
  induction A as [|[t q'] A IH]; intros B q a b H; [reflexivity|]. cbn [app quarters_from].
  assert (L : Qle_bool t a = true) by (apply Qle_bool_iff, (H (t, q')); left; auto). rewrite L. rewrite IH by (intros; apply H; right; auto).
  destruct A as [|d A]; [reflexivity|]. f_equal. f_equal. clear. revert d; induction A as [|e A IH]; intro d; [reflexivity|]. apply (IH e).
Qed.
Lemma quarters_late : forall B q a b, a <= b -> (forall c, In c B -> b <= fst c) -> quarters_from q B a b == q * (b - a) / 60.
Proof.
  intros [|[t q'] B] q a b H1 H2; cbn [quarters_from]; [reflexivity|]. specialize (H2 _ (or_introl eq_refl)). cbn in H2.
  ql (Qle_bool t a).
  - rewrite quarters_empty by lra. assert (E : a == b) by lra. rewrite E. field.
  - assert (L : Qle_bool b t = true) by (apply Qle_bool_iff; auto). rewrite L. reflexivity.
Qed.
Lemma quarters_cut : forall A B q a b, a <= b -> (forall c, In c B -> b <= fst c) -> quarters_from q (A ++ B) a b == quarters_from q A a b.
Proof.
  induction A as [|[t q'] A IH]; intros B q a b H1 H2; cbn [app quarters_from]; [apply quarters_late; auto|].
  ql (Qle_bool t a); [apply IH; auto|]. ql (Qle_bool b t); [reflexivity|]. rewrite (IH B q' t b) by (auto; lra). reflexivity.
Qed.
Lemma quarters_affine : forall k x0 y0 (f : Q -> Q) ins q a b fa fb, 0 < k -> a <= b ->
  (forall c, In c ins -> f (fst c) == y0 + (fst c - x0) / k) -> fa == y0 + (a - x0) / k -> fb == y0 + (b - x0) / k ->
  quarters_from (q * k) (map (fun c => (f (fst c), snd c * k)) ins) fa fb == quarters_from q ins a b.
Proof.
  intros k x0 y0 f ins q a b fa fb K. revert q a fa.
  assert (LIN : forall u v fu fv, fu == y0 + (u - x0) / k -> fv == y0 + (v - x0) / k -> (fv - fu) * k == v - u).
  { intros u v fu fv -> ->. field. lra. }
  assert (CMP : forall u v fu fv, fu == y0 + (u - x0) / k -> fv == y0 + (v - x0) / k -> Qle_bool fu fv = Qle_bool u v).
  { intros u v fu fv E1 E2. pose proof (LIN u v fu fv E1 E2) as E. destruct (Qle_bool u v) eqn:C.
    - apply Qle_bool_iff in C. apply Qle_bool_iff. apply Qnot_lt_le. intro. nra.
    - apply Qle_bool_false in C. apply Qle_bool_false. apply Qnot_le_lt. intro. nra. }
  induction ins as [|[t q'] r IH]; intros q a fa L H E1 E2; cbn [map quarters_from fst snd].
  - pose proof (LIN a b fa fb E1 E2) as E. setoid_replace (b - a) with ((fb - fa) * k) by (symmetry; exact E). field.
  - assert (Et : f t == y0 + (t - x0) / k) by (apply (H (t, q')); left; auto).
    rewrite (CMP t a (f t) fa Et E1), (CMP b t fb (f t) E2 Et). ql (Qle_bool t a); [apply IH; auto; intros; apply H; right; auto|].
    ql (Qle_bool b t).
    + pose proof (LIN a b fa fb E1 E2) as E. setoid_replace (b - a) with ((fb - fa) * k) by (symmetry; exact E). field.
    + rewrite (IH q' t (f t)) by (auto; try lra; intros; apply H; right; auto).
      pose proof (LIN a t fa (f t) E1 Et) as E. setoid_replace (t - a) with ((f t - fa) * k) by (symmetry; exact E). field.
Qed.

Notation sasc := (StronglySorted (fun a b : Q * Q => fst a < fst b /\ snd a < snd b)).
Lemma sasc_asc : forall m, sasc m -> asc m.
Proof. induction 1; constructor; auto. eapply Forall_impl; [|eassumption]. intros b [H1 H2]. split; lra. Qed.
Lemma inside_spec : forall rest s e k q l q' rest', sortedt rest -> later s rest -> inside s e k q rest = (l, (q', rest')) ->
  exists ins, rest = ins ++ rest' /\ l = map (fun c => (fst c, snd c * k)) ins /\ (forall c, In c ins -> s <= fst c /\ fst c < e) /\
  later e rest' /\ sortedt rest' /\ q' = snd (last ins (0, q)).
Proof.
  induction rest as [|[t q1] r IH]; intros s e k q l q' rest' S L H; cbn [inside] in H.
  - injection H as <- <- <-. exists []. split; [reflexivity|]. split; [reflexivity|]. split; [intros c []|]. split; [intros c []|]. split; [constructor|reflexivity].
  - assert (Lt : s <= t) by (apply (L (t, q1)); left; auto). assert (E1 : Qle_bool s t = true) by (apply Qle_bool_iff; auto). rewrite E1 in H. cbn [andb] in H.
    inversion S as [|? ? S1 F]; subst. destruct (Qltb t e) eqn:C.
    + apply Qltb_lt in C. destruct (inside s e k q1 r) as [l0 [q0 r0]] eqn:EI. injection H as <- <- <-.
      destruct (IH s e k q1 l0 q0 r0 S1 ltac:(intros c Hc; apply L; right; auto) EI) as (ins & -> & -> & K1 & K2 & K3 & K4).
      exists ((t, q1) :: ins). split; [reflexivity|]. split; [reflexivity|]. split; [intros c [<- |H]; [auto|apply K1; auto]|]. split; [exact K2|]. split; [exact K3|].
      rewrite K4. destruct ins as [|d ins]; [reflexivity|]. change (last ((t, q1) :: d :: ins) (0, q)) with (last (d :: ins) (0, q)). f_equal. clear. revert d; induction ins as [|a ins IH]; intro d; [reflexivity|]. apply (IH a).
    + apply Qltb_ge in C. injection H as <- <- <-. exists []. split; [reflexivity|]. split; [reflexivity|]. split; [intros c []|]. split; [|split; [exact S|reflexivity]].
      intros c [<- |H]; [exact C|]. rewrite Forall_forall in F. specialize (F _ H). cbn in F. lra.
Qed.
Lemma last_in2 : forall A (l : list A) d, In (last l d) l \/ (l = [] /\ last l d = d).
Proof. intros A l d. destruct l as [|a l]; [right; auto|]. left. destruct (last_split _ (a :: l) d ltac:(discriminate)) as [r E]. rewrite E at 2. apply in_app_iff; right; left; auto. Qed.
Lemma ss_app2 : forall B (R : B -> B -> Prop) a b, StronglySorted R (a ++ b) -> StronglySorted R a /\ StronglySorted R b.
Proof.
  induction a as [|x a IH]; intros b H; [split; [constructor|auto]|]. cbn in H. inversion H as [|? ? H1 H2]; subst. destruct (IH _ H1) as [K1 K2].
  split; auto. constructor; auto. rewrite Forall_forall in *. intros y Hy. apply H2. apply in_app_iff; auto.
Qed.
Lemma zones_facts : forall pts x0 y0 q rest, sasc ((x0, y0) :: pts) -> sortedt rest -> later x0 rest -> 0 < q -> (forall c, In c rest -> 0 < snd c) ->
  StronglySorted (fun a b => fst a <= fst b) (zones x0 y0 pts q rest) /\
  forall c, In c (zones x0 y0 pts q rest) -> x0 <= fst c /\ fst c < fst (last pts (x0, y0)) /\ 0 < snd c.
Proof.
  induction pts as [|[x1 y1] r IH]; intros x0 y0 q rest S So La Q0 Q1; cbn [zones]; [split; [constructor|intros c []]|].
  inversion S as [|? ? S1 F]; subst. pose proof (Forall_inv F) as [L1 L2]. cbn [fst snd] in L1, L2.
  set (k := (x1 - x0) / (y1 - y0)). assert (K : 0 < k) by (apply Qlt_shift_div_l; lra).
  destruct (inside x0 x1 k q rest) as [l [q' rest']] eqn:EI.
  destruct (inside_spec _ _ _ _ _ _ _ _ So La EI) as (ins & -> & -> & I1 & I2 & I3 & I4).
  assert (Q' : 0 < q'). { rewrite I4. destruct (last_in2 _ ins (0, q)) as [H|[_ ->]]; [|exact Q0]. apply Q1. apply in_app_iff; auto. }
  destruct (IH x1 y1 q' rest' S1 I3 I2 Q' ltac:(intros c Hc; apply Q1, in_app_iff; auto)) as [Z1 Z2].
  assert (LX : x1 <= fst (last r (x1, y1))). { destruct (last_in2 _ r (x1, y1)) as [H|[_ ->]]; [|cbn; lra]. inversion S1 as [|? ? S2 F2]; subst. rewrite Forall_forall in F2. destruct (F2 _ H). cbn in *. lra. }
  assert (EL : last ((x1, y1) :: r) (x0, y0) = last r (x1, y1)). { clear. revert x1 y1. induction r as [|[a b] r IH]; intros x1 y1; [reflexivity|]. change (last ((a, b) :: r) (x0, y0) = last ((a, b) :: r) (x1, y1)). rewrite (IH a b). destruct r; [reflexivity|]. symmetry. apply (f_equal (fun z => z)). clear. revert p. induction r; intro p; [reflexivity|]. apply (IHr a0). }
  rewrite EL.
  assert (IN1 : forall c, In c (map (fun c => (fst c, snd c * k)) ins) -> x0 <= fst c /\ fst c < x1 /\ 0 < snd c).
  { intros c Hc. apply in_map_iff in Hc as (d & <- & Hd). cbn [fst snd]. destruct (I1 d Hd). split; auto. split; auto. apply Qmult_lt_0_compat; auto. apply Q1, in_app_iff; auto. }
  split.
  - constructor.
    + apply ss_app; auto.
      * apply sorted_to_map. cbn [fst]. apply ss_app2 in So as [So _]. exact So.
      * intros a b Ha Hb. specialize (IN1 _ Ha). specialize (Z2 _ Hb). lra.
    + rewrite Forall_forall. intros c Hc. cbn [fst]. apply in_app_iff in Hc as [Hc|Hc]; [apply IN1; auto|]. specialize (Z2 _ Hc). lra.
  - intros c [<- |Hc].
    + cbn [fst snd]. split; [lra|]. split; [lra|]. apply Qmult_lt_0_compat; auto.
    + apply in_app_iff in Hc as [Hc|Hc].
      * destruct (IN1 _ Hc) as (A1 & A2 & A3). split; auto. split; [lra|auto].
      * destruct (Z2 _ Hc) as (A1 & A2 & A3). split; [lra|]. split; auto.
Qed.
Lemma zones_quarters : forall pts x0 y0 q rest (f : Q -> Q), pts <> [] -> sasc ((x0, y0) :: pts) -> sortedt rest -> later x0 rest -> 0 < q -> (forall c, In c rest -> 0 < snd c) ->
  (forall x, x0 <= x -> f x == interp_from x0 y0 pts x) ->
  exists q1 Zt, zones x0 y0 pts q rest = (x0, q1) :: Zt /\
  forall b, x0 <= b -> b <= fst (last pts (x0, y0)) -> quarters_from q1 (map (fun c => (f (fst c), snd c)) Zt) y0 (f b) == quarters_from q rest x0 b.
Proof.
  induction pts as [|[x1 y1] r IH]; intros x0 y0 q rest f NE S So La Q0 Q1 Hf; [congruence|]. cbn [zones].
  inversion S as [|? ? S1 F]; subst. pose proof (Forall_inv F) as [L1 L2]. cbn [fst snd] in L1, L2.
  remember ((x1 - x0) / (y1 - y0)) as k eqn:Ek. assert (K : 0 < k) by (subst k; apply Qlt_shift_div_l; lra).
  assert (Kk : (y1 - y0) / (x1 - x0) == 1 / k) by (subst k; field; lra).
  destruct (inside x0 x1 k q rest) as [l [q' rest']] eqn:EI.
  destruct (inside_spec _ _ _ _ _ _ _ _ So La EI) as (ins & -> & -> & I1 & I2 & I3 & I4).
  assert (Q' : 0 < q'). { rewrite I4. destruct (last_in2 _ ins (0, q)) as [H|[_ ->]]; [|exact Q0]. apply Q1. apply in_app_iff; auto. }
  exists (q * k), (map (fun c => (fst c, snd c * k)) ins ++ zones x1 y1 r q' rest'). split; [reflexivity|].
  assert (EL : last ((x1, y1) :: r) (x0, y0) = last r (x1, y1)). { clear. revert x1 y1. induction r as [|[a b] r IH]; intros x1 y1; [reflexivity|]. change (last ((a, b) :: r) (x0, y0) = last ((a, b) :: r) (x1, y1)). rewrite (IH a b). destruct r; [reflexivity|]. symmetry. apply (f_equal (fun z => z)). clear. revert p. induction r; intro p; [reflexivity|]. apply (IHr a0). }
  rewrite EL.
  assert (AS1 : asc ((x1, y1) :: r)) by (apply sasc_asc; auto).
  assert (Hf1 : forall x, x1 <= x -> f x == interp_from x1 y1 r x).
  { intros x Hx. rewrite Hf by lra. cbn [interp_from]. qc (Qltb x x1); [lra|reflexivity]. }
  assert (Y1 : f x1 == y1).
  { rewrite (Hf1 x1) by lra. destruct (interp_from_image r x1 y1 x1 AS1 ltac:(lra)) as (J1 & _). apply (J1 x1 y1 r eq_refl). lra. }
  assert (LIN : forall x, x0 <= x -> x <= x1 -> f x == y0 + (x - x0) / k).
  { intros x H1 H2. destruct (Qlt_le_dec x x1) as [C|C].
    - rewrite Hf by auto. cbn [interp_from]. apply Qltb_lt in C. rewrite C, Kk. field. lra.
    - assert (E : x == x1) by lra. rewrite (Hf1 x C).
      assert (E2 : interp_from x1 y1 r x == y1). { destruct (interp_from_image r x1 y1 x AS1 ltac:(lra)) as (J1 & _). apply (J1 x1 y1 r eq_refl). lra. }
      rewrite E2, E. subst k. field. lra. }
  destruct (zones_facts r x1 y1 q' rest' S1 I3 I2 Q' ltac:(intros c Hc; apply Q1, in_app_iff; auto)) as [_ Z2].
  set (Z := zones x1 y1 r q' rest') in *.
  assert (MONO : forall x, x1 <= x -> y1 <= f x). { intros x Hx. rewrite Hf1 by auto. apply interp_from_low; auto. }
  rewrite map_app, map_map. cbn [fst snd].
  assert (P1 : forall b, x0 <= b -> b <= x1 -> quarters_from (q * k) (map (fun c => (f (fst c), snd c * k)) ins ++ map (fun c => (f (fst c), snd c)) Z) y0 (f b) == quarters_from q (ins ++ rest') x0 b).
  { intros b B1 B2. pose proof (LIN b B1 B2) as Eb. assert (Y0b : y0 <= f b) by (rewrite Hf by auto; apply interp_from_low; [apply sasc_asc; auto|auto]).
    assert (Yb : f b <= y1). { rewrite Eb. pose proof (LIN x1 ltac:(lra) ltac:(lra)) as E1. rewrite Y1 in E1. rewrite E1. assert ((b - x0) / k <= (x1 - x0) / k); [|lra]. apply Qmult_le_compat_r; [lra|]. apply Qlt_le_weak, Qinv_lt_0_compat; auto. }
    rewrite (quarters_cut _ (map (fun c => (f (fst c), snd c)) Z)); [| auto|].
    - rewrite (quarters_cut ins rest') by (auto; intros c Hc; specialize (I2 c Hc); cbn beta in I2; lra).
      apply (quarters_affine k x0 y0 f); auto.
      + intros c Hc. destruct (I1 c Hc). apply LIN; lra.
      + field. lra.
    - intros c Hc. apply in_map_iff in Hc as (d & <- & Hd). cbn [fst]. destruct (Z2 d Hd) as (A1 & _). specialize (MONO _ A1). lra. }
  intros b B1 B2. destruct (Qlt_le_dec x1 b) as [C|C]; [|apply P1; auto].
  assert (NEr : r <> []). { intros ->. cbn in B2. lra. }
  assert (MB : y1 <= f b) by (apply MONO; lra).
  rewrite (quarters_add _ _ y0 y1 (f b)) by lra. rewrite (quarters_add (ins ++ rest') q x0 x1 b) by lra.
  rewrite (quarters_compat _ _ y0 y0 y1 (f x1)) by (try reflexivity; symmetry; auto). rewrite (P1 x1) by lra.
  rewrite (quarters_skip ins rest' q x1 b) by (intros c Hc; destruct (I1 c Hc); lra). rewrite <- I4.
  rewrite (quarters_skip (map (fun c => (f (fst c), snd c * k)) ins) (map (fun c => (f (fst c), snd c)) Z) (q * k) y1 (f b)).
  2: { intros c Hc. apply in_map_iff in Hc as (d & <- & Hd). cbn [fst]. destruct (I1 d Hd) as [D1 D2].
       rewrite (LIN (fst d)) by lra. pose proof (LIN x1 ltac:(lra) ltac:(lra)) as E1. rewrite Y1 in E1. rewrite E1. assert ((fst d - x0) / k <= (x1 - x0) / k); [|lra]. apply Qmult_le_compat_r; [lra|]. apply Qlt_le_weak, Qinv_lt_0_compat; auto. }
  destruct (IH x1 y1 q' rest' f NEr S1 I3 I2 Q' ltac:(intros c Hc; apply Q1, in_app_iff; auto) Hf1) as (q1 & Zt & EZ & HZ).
  fold Z in EZ. rewrite EZ. cbn [map fst snd quarters_from].
  assert (LE : Qle_bool (f x1) y1 = true) by (apply Qle_bool_iff; lra). rewrite LE. rewrite HZ by (auto; lra). reflexivity.
Qed.
