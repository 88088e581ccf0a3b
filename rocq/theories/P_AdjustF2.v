(** Property C217: the ticks adjust_times writes in double precision. *)
From Coq Require Import Sorted Permutation Lqa Lia Qabs.
From Verif Require Import PyBase L_Base M_Note L_Note M_Float L_Float L_Float2 L_NoteF L_NoteF2 M_Beats S_Beats L_Beats M_Adjust S_Adjust L_Adjust L_Adjust2 L_Adjust3 L_Adjust4 S_Snap S_AdjustF S_AdjustF2 M_AdjustF L_AdjustF L_AdjustF2 L_AdjustF3 L_AdjustF4 P_Adjust P_AdjustF.
Open Scope Q_scope.

Lemma placed_mono : forall r g d d' cur N l, d <= d' -> placed r g d cur N l -> placed r g d' cur N l.
Proof. intros r g d d' cur N l H. induction 1; [constructor|apply placed_same; auto|apply placed_new; auto; lra]. Qed.
Lemma slack_u : forall n T q r, tick_slack n T q r == inject_Z (Z.of_nat n) * (128 * (q * inject_Z r / 60 * T * u)).
Proof. intros. unfold tick_slack. rewrite U_eq. change (inject_Z (2 ^ 53)) with (9007199254740992 # 1). field. Qed.

(** C217: ticks computed in doubles: the tempo list of C217_tempi, which conserves musical time
    exactly, is written as tick scales from tick 0 on: an entry either finds its scale already in
    force or gets one of its own, on the tick nearest its exact musical position up to
    [tick_slack] - the running error of one rounding chain per entry, and no more. *)
Theorem C217_ticks : forall (N B C K L : Type) r downs snap tempi orig new (p p' : piece N B C K L), (0 < r)%Z -> tempo_map tempi -> (forall x x', x <= x' -> snap x <= snap x') ->
  adjust_times_f r downs snap tempi orig new p = (Ok tt, p') -> times_used new -> exists m tempi',
  breakpoints orig new m /\ tempo_map tempi' /\
  let pts := moving (map (fun c => (snap (fst c), snd c)) m) in
  (forall a b fa fb, fst (begins pts) <= a -> a <= b -> b <= fst (ends pts) ->
     image pts a fa -> image pts b fb -> quarters tempi' fa fb == quarters tempi a b) /\
  exists t0 q0 rest s tl, lead tempi' = (t0, q0) :: rest /\ p_scales p' = (0%Z, s) :: tl /\ scale_of r q0 s /\
  forall T q, (forall c, In c (lead tempi') -> fst c <= T /\ snd c <= q) -> 128 * inject_Z (Z.of_nat (List.length tempi')) <= inject_Z (2 ^ 53) ->
  placed r (fun t => inject_Z r * quarters (lead tempi') 0 t) (tick_slack (List.length tempi') T q r) s rest tl.
Proof.
  intros TN TB TC TK TL r downs snap tempi orig new p p' R T M H U.
  assert (PRE : orig <> [] /\ enough orig new).
  { destruct (C132_bad_times _ _ _ _ _ r downs snap tempi orig new p) as [[X|[e X]] _]; [exact X|]. exfalso. unfold adjust_times, adjust_times_f in *. destruct (time_map orig new) as [[|c m]|e']; try discriminate.
    destruct (new_scales_f _ _) as [s|e2] eqn:ES in H; [|discriminate]. destruct (new_scales _ _) as [s'|e3] eqn:ES' in X; [discriminate|]. apply err_is in ES' as E3. subst e3. apply map_err_index in ES'.
    assert (EM : new_tempi_f (map (fun c0 => (snap (fst c0), snd c0)) (c :: m)) tempi = []). { revert ES'. unfold new_tempi, new_tempi_f. destruct (progress _) as [|[x0 y0] r0]; auto. destruct tempi as [|[t0 q0] rest]; auto. destruct (skip_to x0 q0 rest) as [q rest']. destruct r0 as [|[x y] r0]; [reflexivity|]. cbn [zones]. destruct (inside _ _ _ _ _) as [l [? ?]]. discriminate. }
    rewrite EM in ES. discriminate. }
  destruct PRE as [NE LG]. destruct (long_ok_f orig new NE LG U) as (m & E & NM & B & A & P & D). rewrite (adjust_ok_f _ _ _ _ _ r downs snap tempi orig new p m E NM) in H.
  set (g := map (fun c => (snap (fst c), snd c)) m) in *. destruct (new_scales_f r (new_tempi_f g tempi)) as [s|e] eqn:ES; [|discriminate].
  cbv zeta in H. injection H as <-. cbn [p_scales].
  pose proof (grid_wasc snap m A M) as W. fold g in W.
  assert (PG : nonneg g) by (intros c Hc; subst g; apply in_map_iff in Hc as (d & <- & Hd); cbn [snd]; apply P; auto).
  pose proof (new_tempi_near g tempi W PG T) as F2.
  assert (LEN : (2 <= List.length (moving g))%nat).
  { destruct (Nat.lt_ge_cases (List.length (moving g)) 2) as [L|L]; auto. exfalso. apply (new_tempi_nil g tempi) in L; [|apply T]. rewrite L in F2. inversion F2 as [X|]. rewrite <- X in ES. discriminate. }
  destruct (new_tempi_spec g tempi W T LEN) as (N1 & N2 & N3 & _ & N4).
  exists m, (new_tempi g tempi). split; auto. split; auto. cbv zeta. fold g.
  split; [destruct (ends_eq (moving g)) as (E1 & E2 & E3 & E4); rewrite <- E1, <- E3; exact N4|].
  destruct N1 as (_ & SO & QP).
  destruct (new_tempi_f g tempi) as [|[t q] rest] eqn:EL; [discriminate|]. destruct (new_tempi g tempi) as [|[t' q'] rest'] eqn:EL'; [inversion F2|].
  inversion F2 as [|? ? ? ? [K1 K2] F2']; subst. cbn [fst snd] in K1, K2. pose proof (QP (t', q') (or_introl eq_refl)) as Q0. cbn [snd] in Q0.
  assert (ZERO : Qeq_bool t 0 = Qeq_bool t' 0).
  { destruct K1 as (A1 & A2 & A3 & A4). destruct (Qeq_bool t 0) eqn:Z; symmetry.
    - apply Qeq_bool_iff in Z. apply Qeq_bool_iff. rewrite Z in A3. assert (lp 6 * 0 == 0) by ring. lra.
    - destruct (Qeq_bool t' 0) eqn:Z'; [|reflexivity]. apply Qeq_bool_iff in Z'. rewrite Z' in A4. assert (lp 6 * 0 == 0) by ring. assert (t == 0) by lra. apply Qeq_bool_iff in H0. congruence. }
  assert (NN : forall c, In c ((t', q') :: rest') -> 0 <= fst c).
  { clear -F2. intros c Hc. revert Hc. induction F2 as [|a b l l' [Ka _] F2 IH]; intro Hc; [contradiction|]. destruct Hc as [<- |Hc]; auto. destruct Ka as (_ & X & _). exact X. }
  assert (R' : 0 < inject_Z r) by (unfold Qlt; cbn; lia).
  assert (MAIN : forall F Nn q1 lq n TT qq, Forall2 near_entry F Nn -> sortedt Nn -> (forall c, In c Nn -> 0 <= fst c /\ 0 < snd c /\ fst c <= TT /\ snd c <= qq) -> 0 <= TT -> 0 < q1 -> q1 <= qq -> near 4 lq q1 ->
    (List.length Nn <= n)%nat -> 128 * inject_Z (Z.of_nat n) <= inject_Z (2 ^ 53) -> forall G, (forall x, 0 <= x -> G x == inject_Z r * quarters_from q1 Nn 0 x) ->
    placed r G (tick_slack n TT qq r) (tick_scale_f lq r) Nn (scales_from_f r 0 (tick_scale_f lq r) 0 F)).
  { intros F Nn q1 lq n TT qq FF SS HH HT HQ HQ2 HN HL Hn G HG. eapply placed_mono; [rewrite slack_u; apply Qle_refl|].
    assert (UU : u == 1 # 9007199254740992) by (rewrite U_eq; reflexivity).
    assert (RM : forall x, x <= qq -> x * inject_Z r / 60 <= qq * inject_Z r / 60).
    { intros x Hx. unfold Qdiv. apply Qmult_le_compat_r; [|discriminate]. apply Qmult_le_compat_r; auto. lra. }
    assert (RP : 0 <= qq * inject_Z r / 60) by (apply Qle_trans with (q1 * inject_Z r / 60); [apply Qle_shift_div_l; [reflexivity|]; assert (0 <= q1 * inject_Z r) by (apply Qmult_le_0_compat; lra); lra|apply RM; auto]).
    apply (scales_placed r G TT (qq * inject_Z r / 60) n Nn F 0 0 (tick_scale_f lq r) 0 0 0 q1 0); auto; try lra.
    - rewrite UU. change (inject_Z (2 ^ 53)) with (9007199254740992 # 1) in Hn. lra.
    - intros c Hc. apply HH; auto.
    - intros c Hc. destruct (HH c Hc) as (_ & X2 & X3 & X4). auto.
    - apply near_scale; auto.
    - apply near_refl. apply Qle_refl.
    - intros x Hx. rewrite (HG x Hx). ring.
    - setoid_replace (0 + (0 - 0) / tick_scale_f lq r - 0) with 0 by (unfold Qdiv; ring). change (inject_Z (Z.of_nat 0)) with 0. change (Qabs 0) with 0. lra. }
  inversion SO as [|? ? S1 Fo]; subst. unfold new_scales_f in ES. cbn [lead]. rewrite ZERO in ES. destruct (Qeq_bool t' 0) eqn:Z; injection ES as <-.
  - exists t', q', rest', (tick_scale_f q r). eexists. split; [reflexivity|]. split; [reflexivity|].
    split; [unfold scale_of; apply near6_within; apply near_scale; auto|]. intros TT qq HB Hn. destruct (HB (t', q') (or_introl eq_refl)) as [B1 B2]. cbn [fst snd] in B1, B2. apply Qeq_bool_iff in Z.
    apply MAIN with (q1 := q'); auto; try lra.
    + intros c Hc. destruct (HB c (or_intror Hc)). split; [apply NN; right; auto|]. split; [apply (QP c); right; auto|auto].
    + cbn. lia.
    + intros x Hx. cbn [quarters]. reflexivity.
  - exists 0, 120, ((t', q') :: rest'), (tick_scale_f 120 r). eexists. split; [reflexivity|]. split; [reflexivity|].
    split; [unfold scale_of; apply near6_within; apply near_scale; auto; [reflexivity|apply near_refl; discriminate]|]. intros TT qq HB Hn.
    destruct (HB (0, 120) (or_introl eq_refl)) as [B1 B2]. cbn [fst snd] in B1, B2.
    apply (MAIN ((t, q) :: rest) ((t', q') :: rest') 120 120 _ TT qq); auto; try lra; try (apply near_refl; discriminate); try reflexivity.
    intros c Hc. destruct (HB c (or_intror Hc)). auto.
Qed.
Print Assumptions C217_ticks.

(** The hypotheses are met: 0..1 at 120 stretched to 0..2 and 1..2 to 2..2.25, doubles all of them;
    the bound is not void either - 128 entries until second 1000 at 300 and 220 ticks a quarter move
    no tick by a hundred-thousandth part. *)
Example C217_ticks_case :
  tempo_map [(0, 120)] /\ times_used [0; 2; 9 # 4] /\
  (let run := adjust_times_f 220 [] (fun x => x) [(0, 120)] [0; 1; 2] [0; 2; 9 # 4]
     (mkPiece (N := unit) (B := unit) (C := unit) (K := unit) (L := unit) [] [] [] [] [] [] []) in
   fst run = Ok tt /\ map fst (p_scales (snd run)) = [0; 440]%Z) /\
  tick_slack 128 1000 300 220 < 1 # 100000.
Proof.
  split; [|split; [|split; [split|]; vm_compute; reflexivity]].
  - split; [discriminate|]. split; [repeat constructor|]. intros c [<- |[]]. reflexivity.
  - intros y [<- |[<- |[<- |[]]]]; split; try discriminate; vm_compute; reflexivity.
Qed.
