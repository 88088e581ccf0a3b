(** New tempo list, tick scales, and the whole call. *)
From Coq Require Import Sorted Permutation Lqa Lia.
From Verif Require Import PyBase L_Base M_Note L_Note L_Note2 M_Beats S_Beats L_Beats M_Adjust S_Adjust L_Adjust L_Adjust2 L_Adjust3.
Open Scope Q_scope.

Lemma progress_moving : forall m, progress m = moving m.
Proof.
  intros [|[x y] r]; [reflexivity|]. cbn [progress moving]. f_equal. revert x y. induction r as [|[x1 y1] r IH]; intros x y; [reflexivity|].
  cbn [progress_from combine filter fst snd]. destruct (_ && _); cbn [map snd]; rewrite IH; reflexivity.
Qed.
Notation wasc := (StronglySorted (fun a b : Q * Q => fst a <= fst b /\ snd a <= snd b)).
Lemma progress_sasc : forall r x y, wasc ((x, y) :: r) -> sasc ((x, y) :: progress_from x y r).
Proof.
  assert (GT : forall r x y, wasc ((x, y) :: r) -> sasc (progress_from x y r) /\ Forall (fun c => x < fst c /\ y < snd c) (progress_from x y r)).
  { induction r as [|[x1 y1] r IH]; intros x y S; cbn [progress_from]; [split; constructor|].
    inversion S as [|? ? S1 F]; subst. pose proof (Forall_inv F) as [L1 L2]. cbn [fst snd] in L1, L2. destruct (IH x1 y1 S1) as [I1 I2].
    assert (W : Forall (fun c => x < fst c /\ y < snd c) (progress_from x1 y1 r)) by (eapply Forall_impl; [|exact I2]; intros c [H1 H2]; split; lra).
    destruct (negb (Qeq_bool y y1) && negb (Qeq_bool x x1)) eqn:E; [|split; auto].
    apply andb_prop in E as [E1 E2]. apply negb_true_iff in E1, E2.
    assert (N1 : ~ y == y1) by (intro K; apply Qeq_bool_iff in K; congruence). assert (N2 : ~ x == x1) by (intro K; apply Qeq_bool_iff in K; congruence).
    split; constructor; auto. cbn [fst snd]. split; lra. }
  intros r x y S. destruct (GT r x y S) as [H1 H2]. constructor; auto.
Qed.
Lemma skip_to_spec : forall rest x q q' rest', sortedt rest -> 0 < q -> (forall c, In c rest -> 0 < snd c) -> skip_to x q rest = (q', rest') ->
  sortedt rest' /\ later x rest' /\ 0 < q' /\ (forall c, In c rest' -> 0 < snd c) /\ forall a b, x <= a -> quarters_from q rest a b = quarters_from q' rest' a b.
Proof.
  induction rest as [|[t q1] r IH]; intros x q q' rest' So Q0 Q1 H; cbn [skip_to] in H.
  - injection H as <- <-. split; [constructor|]. split; [intros c []|]. split; auto.
  - ql (Qle_bool t x).
    + inversion So as [|? ? S1 F]; subst. destruct (IH x q1 q' rest' S1 (Q1 (t, q1) (or_introl eq_refl)) ltac:(intros c Hc; apply Q1; right; auto) H) as (K1 & K2 & K3 & K4 & K5).
      split; auto. split; auto. split; auto. split; auto. intros a b Ha. cbn [quarters_from]. assert (L : Qle_bool t a = true) by (apply Qle_bool_iff; lra). rewrite L. apply K5; auto.
    + injection H as <- <-. split; auto. split; [|auto]. inversion So as [|? ? S1 F]; subst. rewrite Forall_forall in F.
      intros c [<- |Hc]; cbn [fst]; [lra|]. specialize (F c Hc). cbn in F. lra.
Qed.
Lemma last_cons : forall A (r : list A) c d, last (c :: r) d = last r c.
Proof. induction r as [|a r IH]; intros c d; [reflexivity|]. change (last (a :: r) d = last (a :: r) c). rewrite !IH. reflexivity. Qed.
Lemma new_tempi_spec : forall m tempi, wasc m -> tempo_map tempi -> (2 <= List.length (moving m))%nat ->
  tempo_map (new_tempi m tempi) /\ asc (moving m) /\
  (forall c, In c (new_tempi m tempi) -> first_y m <= fst c) /\
  (exists q1 N, new_tempi m tempi = (interp (moving m) (first_x m), q1) :: N) /\
  forall a b fa fb, first_x (moving m) <= a -> a <= b -> b <= last_x (moving m) -> image (moving m) a fa -> image (moving m) b fb ->
    quarters (new_tempi m tempi) fa fb == quarters tempi a b.
Proof.
  intros m tempi W (T1 & T2 & T3) L. rewrite <- progress_moving in *. destruct m as [|[x0 y0] r0]; [cbn in L; lia|]. unfold new_tempi. cbn [first_x first_y].
  pose proof (progress_sasc r0 x0 y0 W) as SP. cbn [progress] in *. set (r := progress_from x0 y0 r0) in *.
  assert (NE : r <> []) by (intros E; rewrite E in L; cbn in L; lia).
  destruct tempi as [|[t0 q0] rest]; [congruence|]. destruct (skip_to x0 q0 rest) as [q rest'] eqn:ES.
  inversion T2 as [|? ? T2' _]; subst.
  destruct (skip_to_spec rest x0 q0 q rest' T2' (T3 _ (or_introl eq_refl)) ltac:(intros c Hc; apply T3; right; auto) ES) as (K1 & K2 & K3 & K4 & K5).
  pose proof (sasc_asc _ SP) as AP. set (f := interp ((x0, y0) :: r)).
  assert (Hf : forall x, x0 <= x -> f x == interp_from x0 y0 r x). { intros x Hx. unfold f. cbn [interp]. qc (Qltb x x0); [lra|reflexivity]. }
  destruct (zones_facts r x0 y0 q rest' SP K1 K2 K3 K4) as [Z1 Z2].
  destruct (zones_quarters r x0 y0 q rest' f NE SP K1 K2 K3 K4 Hf) as (q1 & Zt & EZ & HZ). rewrite EZ in *.
  assert (F0 : f x0 == y0) by (apply interp_at; auto; left; auto).
  assert (LX : last_x ((x0, y0) :: r) = fst (last r (x0, y0))) by (unfold last_x; rewrite last_cons; reflexivity).
  split; [|split; [exact AP|split; [|split]]].
  - split; [discriminate|]. split.
    + apply sorted_to_map. cbn [fst]. clear -Z1 AP. induction Z1 as [|a l S IH F]; constructor; auto. eapply Forall_impl; [|exact F]. intros b H. apply interp_mono; auto.
    + intros c Hc. apply in_map_iff in Hc as (d & <- & Hd). cbn [snd]. apply Z2; auto.
  - intros c Hc. apply in_map_iff in Hc as (d & <- & Hd). cbn [fst]. destruct (Z2 d Hd) as (A1 & _). assert (f x0 <= f (fst d)) by (apply interp_mono; auto). unfold f in *. lra.
  - exists q1, (map (fun c => (f (fst c), snd c)) Zt). reflexivity.
  - intros a b fa fb Ha Hab Hb Ia Ib. rewrite LX in Hb. cbn [first_x] in Ha.
    assert (Ea : fa == f a) by (apply (image_unique ((x0, y0) :: r) a); auto; [discriminate|apply interp_image; auto]).
    assert (Eb : fb == f b) by (apply (image_unique ((x0, y0) :: r) b); auto; [discriminate|apply interp_image; auto]).
    cbn [map quarters fst snd]. rewrite (quarters_compat _ _ fa (f a) fb (f b)) by auto. fold f.
    pose proof (HZ a ltac:(lra) ltac:(lra)) as H1. pose proof (HZ b ltac:(lra) ltac:(lra)) as H2.
    assert (M1 : y0 <= f a) by (rewrite <- F0; apply interp_mono; auto). assert (M2 : f a <= f b) by (apply interp_mono; auto).
    pose proof (quarters_add (map (fun c => (f (fst c), snd c)) Zt) q1 y0 (f a) (f b) M1 M2) as A1.
    pose proof (quarters_add rest' q x0 a b ltac:(lra) Hab) as A2. rewrite (K5 a b) by lra. lra.
Qed.
Lemma new_tempi_nil : forall m tempi, tempi <> [] -> (new_tempi m tempi = [] <-> (List.length (moving m) < 2)%nat).
Proof.
  intros m tempi NT. rewrite <- progress_moving. unfold new_tempi. destruct (progress m) as [|[x0 y0] r] eqn:E; [split; auto; cbn; lia|].
  destruct tempi as [|[t0 q0] rest]; [congruence|]. destruct (skip_to x0 q0 rest) as [q rest']. destruct r as [|[x1 y1] r]; [cbn; split; auto|].
  cbn [zones List.length]. destruct (inside _ _ _ _ _) as [l [q' r']]. cbn. split; [discriminate|lia].
Qed.

(* tick scales *)
Lemma quarters_q : forall l q q' a b, q == q' -> quarters_from q l a b == quarters_from q' l a b.
Proof. intros [|[t u] l] q q' a b H; cbn [quarters_from]; [rewrite H; reflexivity|]. destruct (Qle_bool t a); [reflexivity|]. destruct (Qle_bool b t); rewrite H; reflexivity. Qed.
Lemma quarters_repeat : forall l q t q' a b, q' == q -> (forall c, In c l -> t <= fst c) -> a <= b -> quarters_from q ((t, q') :: l) a b == quarters_from q l a b.
Proof.
  intros l q t q' a b E H Hab. cbn [quarters_from]. ql (Qle_bool t a); [apply quarters_q; auto|]. ql (Qle_bool b t).
  - rewrite quarters_late; [reflexivity|auto|]. intros c Hc. specialize (H c Hc). lra.
  - rewrite (quarters_add l q a t b) by lra. rewrite (quarters_late l q a t) by (auto; lra). rewrite (quarters_q l q' q) by auto. reflexivity.
Qed.
Lemma scale_eq : forall r q q', (0 < r)%Z -> 0 < q -> 0 < q' -> (60 / (q' * inject_Z r) == 60 / (q * inject_Z r) <-> q' == q).
Proof.
  intros r q q' R Q0 Q1. assert (R' : 0 < inject_Z r) by (unfold Qlt; cbn; lia). split; [|intros ->; reflexivity].
  intro H. assert (P : 0 < q * inject_Z r) by (apply Qmult_lt_0_compat; auto). assert (P' : 0 < q' * inject_Z r) by (apply Qmult_lt_0_compat; auto).
  assert (E : 60 / (q' * inject_Z r) * (q * q' * inject_Z r) == 60 / (q * inject_Z r) * (q * q' * inject_Z r)) by (rewrite H; reflexivity).
  assert (E1 : 60 / (q' * inject_Z r) * (q * q' * inject_Z r) == 60 * q) by (field; lra).
  assert (E2 : 60 / (q * inject_Z r) * (q * q' * inject_Z r) == 60 * q') by (field; lra). lra.
Qed.
Lemma Qabsb_m : forall a b, a == b -> Qabsb a == Qabsb b.
Proof. intros a b H. destruct (Qabsb_spec a) as [[? ->]|[? ->]]; destruct (Qabsb_spec b) as [[? ->]|[? ->]]; lra. Qed.
Lemma scales_spec : forall r l lt ls pv q g, (0 < r)%Z -> 0 < q -> (forall c, In c l -> 0 < snd c) -> sortedt l -> later pv l -> ls == 60 / (q * inject_Z r) ->
  (forall u, pv <= u -> g u == lt + inject_Z r * quarters_from q l pv u) ->
  Forall2 (tick_at r g) (changes q l) (scales_from r lt ls pv l).
Proof.
  intros r l. induction l as [|[t q'] l IH]; intros lt ls pv q g R Q0 Q1 So La Els Hg; cbn [changes scales_from]; [constructor|].
  assert (R' : 0 < inject_Z r) by (unfold Qlt; cbn; lia). assert (Q' : 0 < q') by (apply (Q1 (t, q')); left; auto).
  inversion So as [|? ? S1 F]; subst. rewrite Forall_forall in F. assert (Pt : pv <= t) by (apply (La (t, q')); left; auto).
  assert (P : 0 < q * inject_Z r) by (apply Qmult_lt_0_compat; auto).
  assert (CMP : Qeq_bool (60 / (q' * inject_Z r)) ls = Qeq_bool q' q).
  { destruct (Qeq_bool q' q) eqn:E.
    - apply Qeq_bool_iff. rewrite Els. apply scale_eq; auto. apply Qeq_bool_iff; auto.
    - destruct (Qeq_bool (60 / (q' * inject_Z r)) ls) eqn:E2; auto. apply Qeq_bool_iff in E2. rewrite Els in E2. apply scale_eq in E2; auto. apply Qeq_bool_iff in E2. congruence. }
  rewrite CMP. cbn [snd]. destruct (Qeq_bool q' q) eqn:E.
  - apply Qeq_bool_iff in E. apply (IH lt ls pv q g); auto.
    + intros; apply Q1; right; auto.
    + intros c Hc; apply La; right; auto.
    + intros u Hu. rewrite (Hg u Hu). rewrite quarters_repeat; [reflexivity|exact E|intros c Hc; apply (F c Hc)|exact Hu].
  - assert (TK : lt + (t - pv) / ls == g t).
    { rewrite (Hg t Pt). rewrite (quarters_late ((t, q') :: l) q pv t); [rewrite Els; field; lra|auto|]. intros c [<- |Hc]; cbn [fst]; [lra|apply (F c Hc)]. }
    constructor.
    + split; cbn [fst snd]; [reflexivity|]. pose proof (round_half_even_near (lt + (t - pv) / ls)) as N. 
      rewrite (Qabsb_m _ (inject_Z (round_half_even (lt + (t - pv) / ls)) - (lt + (t - pv) / ls))); [exact N|]. lra.
    + apply (IH (lt + (t - pv) / ls) (60 / (q' * inject_Z r)) t q' g); auto.
      * intros; apply Q1; right; auto.
      * reflexivity.
      * intros u Hu. rewrite TK. rewrite (Hg u) by lra. rewrite (Hg t) by lra. rewrite (quarters_add _ q pv t u) by auto.
        assert (EQ : quarters_from q ((t, q') :: l) t u = quarters_from q' l t u) by (cbn [quarters_from]; assert (L1 : Qle_bool t t = true) by (apply Qle_bool_iff; lra); rewrite L1; reflexivity). rewrite EQ. ring.
Qed.
Lemma new_scales_spec : forall r N s, (0 < r)%Z -> tempo_map N -> (forall c, In c N -> 0 <= fst c) -> new_scales r N = Ok s ->
  exists t0 q0 rest tl, lead N = (t0, q0) :: rest /\ s = (0%Z, 60 / (q0 * inject_Z r)) :: tl /\
  Forall2 (tick_at r (fun t => inject_Z r * quarters (lead N) 0 t)) (changes q0 rest) tl.
Proof.
  intros r N s R (N1 & N2 & N3) NN H. destruct N as [|[t q] rest]; [congruence|]. cbn [new_scales lead] in *.
  inversion N2 as [|? ? S1 F]; subst. destruct (Qeq_bool t 0) eqn:E; apply Ok_inj in H; subst s.
  - exists t, q, rest, (scales_from r 0 (60 / (q * inject_Z r)) 0 rest). split; [reflexivity|]. split; [reflexivity|].
    apply scales_spec with (1 := R); auto.
    + apply (N3 _ (or_introl eq_refl)).
    + intros; apply N3; right; auto.
    + intros c Hc. apply NN. right; auto.
    + reflexivity.
    + intros u Hu. cbn [quarters]. ring.
  - exists 0, 120, ((t, q) :: rest), (scales_from r 0 (60 / (120 * inject_Z r)) 0 ((t, q) :: rest)). split; [reflexivity|]. split; [reflexivity|].
    apply scales_spec with (1 := R); auto; try reflexivity.
    intros u Hu. cbn [quarters]. ring.
Qed.

(* the whole call *)
Lemma max_pos : forall y, Qmaxb 0 y == pos y.
Proof. intro y. unfold pos. destruct (Qmaxb_spec 0 y) as [[H ->]|[H ->]]; qc (Qltb 0 y); lra. Qed.
Lemma carried_impl : forall A B (k k' : A -> Prop) (R R' : A -> B -> Prop) l l', (forall a, k a <-> k' a) -> (forall a b, k a -> R a b -> R' a b) -> carried k R l l' -> carried k' R' l l'.
Proof. intros A B k k' R R' l l' H1 H2. induction 1; [constructor|apply carried_keep; auto; apply H1; auto|apply carried_drop; auto; rewrite <- H1; auto]. Qed.
Lemma long_ok : forall orig new, orig <> [] -> (forall i x, first_at orig i x -> (i < List.length new)%nat) ->
  exists m, time_map orig new = Ok m /\ m <> [] /\ breakpoints orig new m /\ asc m.
Proof.
  intros orig new NE LG. destruct (time_map orig new) as [m|e] eqn:E.
  - exists m. destruct (time_map_spec orig new m E) as (K1 & K2 & K3). split; auto. split; [intro K; apply NE, K2; auto|]. auto.
  - exfalso. destruct (time_map_err orig new) as [H1 H2]. rewrite (H1 e E) in E. apply H2 in E as (i & x & K1 & K2). specialize (LG i x K1). lia.
Qed.
Definition moved {N B C K L} (r : Z) (downs : list Q) (m : list (Q * Q)) (p : piece N B C K L) : piece N B C K L :=
  mkPiece (map (adjust_notes m) (p_notes p)) (map (adjust_events m) (p_bends p)) (map (adjust_events m) (p_ccs p))
    (adjust_events m (p_keys p)) (adjust_events m (p_lyrics p)) (adjust_sigs m downs (p_sigs p)) (p_scales p).
Lemma adjust_ok : forall N B C K L r downs snap tempi orig new (p : piece N B C K L) m, time_map orig new = Ok m -> m <> [] ->
  adjust_times r downs snap tempi orig new p =
  match new_scales r (new_tempi (map (fun c => (snap (fst c), snd c)) m) tempi) with
  | Err e => (Err e, moved r downs m p)
  | Ok s => let p1 := moved r downs m p in (Ok tt, mkPiece (p_notes p1) (p_bends p1) (p_ccs p1) (p_keys p1) (p_lyrics p1) (p_sigs p1) s)
  end.
Proof. intros N B C K L r downs snap tempi orig new p m E NE. unfold adjust_times. rewrite E. destruct m; [congruence|reflexivity]. Qed.
Lemma adjust_parts : forall N B C K L r downs snap tempi orig new (p : piece N B C K L) m, time_map orig new = Ok m -> m <> [] ->
  let p' := snd (adjust_times r downs snap tempi orig new p) in let p1 := moved r downs m p in
  p_notes p' = p_notes p1 /\ p_bends p' = p_bends p1 /\ p_ccs p' = p_ccs p1 /\ p_keys p' = p_keys p1 /\ p_lyrics p' = p_lyrics p1 /\ p_sigs p' = p_sigs p1.
Proof. intros. subst p' p1. rewrite (adjust_ok _ _ _ _ _ r downs snap tempi orig new p m H H0). destruct (new_scales _ _); cbn; auto 8. Qed.
Lemma F2_map : forall A B (R : A -> B -> Prop) f l, (forall a, R a (f a)) -> Forall2 R l (map f l).
Proof. intros A B R f l H. induction l; cbn; constructor; auto. Qed.
Lemma map_err_index : forall r N, new_scales r N = Err IndexError <-> N = [].
Proof. intros r [|[t q] N]; cbn; [split; auto|]. destruct (Qeq_bool t 0); split; discriminate. Qed.
Lemma err_is : forall r N e, new_scales r N = Err e -> e = IndexError.
Proof. intros r [|[t q] N] e; cbn; [intro H; inversion H; auto|]. destruct (Qeq_bool t 0); discriminate. Qed.
