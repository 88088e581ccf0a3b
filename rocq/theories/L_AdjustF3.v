(** The tempo list in double precision. *)
From Coq Require Import Sorted Permutation Lqa Lia.
From Verif Require Import PyBase L_Base M_Note L_Note L_Note2 M_Float L_Float L_Float2 L_NoteF L_Snap L_UtilsF3 M_Beats S_Beats M_Adjust S_Adjust L_Adjust L_Adjust2 L_Adjust3 L_Adjust4 S_Snap S_AdjustF M_AdjustF L_AdjustF.
Open Scope Q_scope.

Lemma scaled_near : forall q k k', 0 < q -> near 3 k' k -> near 4 (fl (q * k')) (q * k).
Proof.
  intros q k k' Q0 N. apply near_fl'. apply (near_m 3 (k' * q) (k * q)); [ring|ring|]. apply near_mul; [lra|exact N].
Qed.
Lemma speed_near : forall x0 y0 x y, x0 < x -> y0 < y -> near 3 (fl (fl (x - x0) / fl (y - y0))) ((x - x0) / (y - y0)).
Proof.
  intros x0 y0 x y X Y. apply near_fl'. apply (near_trans 1 1 _ (fl (x - x0) / (y - y0))).
  - apply near_div; [apply fl_nonneg; lra|lra|apply near_fl; lra].
  - apply near_quot; [lra|apply near_fl; lra].
Qed.
Definition alike (c c' : Q * Q) : Prop := fst c = fst c' /\ near 4 (snd c) (snd c').
Lemma inside_near : forall rest s e k k' q, near 3 k' k -> (forall c, In c rest -> 0 < snd c) ->
  Forall2 alike (fst (inside_f s e k' q rest)) (fst (inside s e k q rest)) /\ snd (inside_f s e k' q rest) = snd (inside s e k q rest).
Proof.
  induction rest as [|[t q'] r IH]; intros s e k k' q N P; cbn [inside_f inside]; [split; constructor|].
  destruct (Qle_bool s t && Qltb t e); [|split; constructor]. destruct (IH s e k k' q' N ltac:(intros; apply P; right; auto)) as [K1 K2].
  destruct (inside_f s e k' q' r) as [l st]. destruct (inside s e k q' r) as [l' st']. cbn [fst snd] in *. split; [|exact K2]. constructor; auto.
  split; [reflexivity|]. cbn [snd]. apply scaled_near; auto. apply (P (t, q')); left; auto.
Qed.
Lemma zones_near : forall pts x0 y0 q rest, sasc ((x0, y0) :: pts) -> 0 < q -> (forall c, In c rest -> 0 < snd c) ->
  Forall2 alike (zones_f x0 y0 pts q rest) (zones x0 y0 pts q rest).
Proof.
  induction pts as [|[x y] r IH]; intros x0 y0 q rest S Q0 P; cbn [zones_f zones]; [constructor|].
  inversion S as [|? ? S1 F]; subst. rewrite Forall_forall in F. destruct (F (x, y) (or_introl eq_refl)) as [X Y]. cbn [fst snd] in X, Y.
  pose proof (speed_near x0 y0 x y X Y) as N. set (kf := fl (fl (x - x0) / fl (y - y0))) in *. set (k := (x - x0) / (y - y0)) in *.
  destruct (inside_near rest x0 x k kf q N P) as [K1 K2]. 
  destruct (inside_f x0 x kf q rest) as [l [q1 rest1]]. destruct (inside x0 x k q rest) as [l' [q2 rest2]] eqn:EI. cbn [fst snd] in K1, K2. injection K2 as -> ->.
  assert (G : 0 < q2 /\ forall c, In c rest2 -> 0 < snd c).
  { clear -EI P Q0. revert q l' EI Q0. induction rest as [|[t q'] r IH]; intros q l' EI Q0; cbn [inside] in EI; [injection EI as _ <- <-; auto|].
    destruct (Qle_bool x0 t && Qltb t x); [|injection EI as _ <- <-; auto]. destruct (inside x0 x k q' r) as [l [a b]] eqn:E2. injection EI as _ <- <-.
    apply (IH ltac:(intros; apply P; right; auto) q' l E2). apply (P (t, q')); left; auto. }
  destruct G as [G1 G2]. constructor; [split; [reflexivity|apply scaled_near; auto]|]. apply Forall2_app; auto.
Qed.
Definition near_entry (c c' : Q * Q) : Prop := near 6 (fst c) (fst c') /\ near 4 (snd c) (snd c').
Lemma new_tempi_near : forall m tempi, StronglySorted (fun a b => fst a <= fst b /\ snd a <= snd b) m -> nonneg m -> tempo_map tempi -> Forall2 near_entry (new_tempi_f m tempi) (new_tempi m tempi).
Proof.
  intros m tempi W P (T1 & T2 & T3). unfold new_tempi_f, new_tempi. destruct m as [|[x0 y0] r0]; [constructor|]. cbn [progress].
  pose proof (progress_sasc r0 x0 y0 W) as SP. set (r := progress_from x0 y0 r0) in *.
  assert (NP : nonneg ((x0, y0) :: r)).
  { intros c [<- |Hc]; [apply (P (x0, y0)); left; auto|]. unfold r in Hc. clear -Hc P. assert (G : forall l a b, (forall c, In c l -> 0 <= snd c) -> forall c, In c (progress_from a b l) -> 0 <= snd c).
    { clear. induction l as [|[x y] l IH]; intros a b H c Hc; cbn in Hc; [contradiction|]. destruct (_ && _); [destruct Hc as [<- |Hc]; [apply (H (x, y)); left; auto|]|]; eapply IH; try exact Hc; intros; apply H; right; auto. }
    apply (G r0 x0 y0); auto. intros d Hd. apply P; right; auto. }
  destruct tempi as [|[t0 q0] rest]; [congruence|]. destruct (skip_to x0 q0 rest) as [q rest'] eqn:ES. inversion T2 as [|? ? T2' _]; subst.
  destruct (skip_to_spec rest x0 q0 q rest' T2' (T3 _ (or_introl eq_refl)) ltac:(intros c Hc; apply T3; right; auto) ES) as (_ & _ & K3 & K4 & _).
  pose proof (zones_near r x0 y0 q rest' SP K3 K4) as Z. pose proof (sasc_asc _ SP) as AP.
  clear -Z AP NP. induction Z as [|a b l l' [E N] Z IH]; cbn [map]; constructor; auto. split; cbn [fst snd]; [|exact N]. rewrite E. apply interp_near; auto.
Qed.
Lemma near4_within : forall a b, near 4 a b -> within warp_error a b.
Proof. intros a b N. apply near6_within. apply (near_le 4); auto. Qed.
Lemma near_scale : forall r q q', (0 < r)%Z -> 0 < q -> near 4 q' q -> near 6 (tick_scale_f q' r) (60 / (q * inject_Z r)).
Proof.
  intros r q q' R Q0 N. unfold tick_scale_f. assert (R0 : 0 < inject_Z r) by (rewrite <- (Zlt_Qlt 0); auto). apply near_fl'. apply near_div; [discriminate|apply Qmult_lt_0_compat; auto|].
  apply near_fl'. apply near_mul; [lra|exact N].
Qed.
(** Every zone starts with a tempo entry exactly at its new time. *)
Lemma zones_starts : forall pts x0 y0 q rest l c c' r, (x0, y0) :: pts = l ++ c :: c' :: r -> exists q', In (fst c, q') (zones_f x0 y0 pts q rest).
Proof.
  induction pts as [|[x y] pts IH]; intros x0 y0 q rest l c c' r E; cbn [zones_f].
  - destruct l as [|? [|? ?]]; discriminate.
  - destruct (inside_f x0 x (fl (fl (x - x0) / fl (y - y0))) q rest) as [l1 [q1 rest1]]. destruct l as [|a l]; cbn in E.
    + injection E as <- _. eexists. left. reflexivity.
    + injection E as _ E. destruct (IH x y q1 rest1 l c c' r E) as [q' K]. exists q'. right. apply in_app_iff; right; exact K.
Qed.
Lemma new_tempi_starts : forall m tempi l c c' r, StronglySorted (fun a b => fst a <= fst b /\ snd a <= snd b) m -> tempi <> [] -> moving m = l ++ c :: c' :: r -> exists q', In (snd c, q') (new_tempi_f m tempi).
Proof.
  intros m tempi l c c' r W T E. rewrite <- progress_moving in E. unfold new_tempi_f. destruct m as [|[x0 y0] r0]; [destruct l; discriminate|]. cbn [progress] in *.
  pose proof (sasc_asc _ (progress_sasc r0 x0 y0 W)) as AP. set (p := progress_from x0 y0 r0) in *. destruct tempi as [|[t0 q0] rest]; [congruence|].
  destruct (skip_to x0 q0 rest) as [q rest']. destruct (zones_starts p x0 y0 q rest' l c c' r E) as [q' K]. exists q'. apply in_map_iff. exists (fst c, q'). split; [|exact K]. cbn [fst snd].
  f_equal. apply (interp_f_at _ (fst c)); auto; [|reflexivity]. rewrite E. rewrite <- surjective_pairing. apply in_app_iff; right; left; auto.
Qed.
Lemma new_scales_f_err : forall r N e, new_scales_f r N = Err e <-> e = IndexError /\ N = [].
Proof. intros r [|[t q] N] e; cbn; [split; [intro H; inversion H; auto|intros [-> _]; reflexivity]|]. destruct (Qeq_bool t 0); split; try discriminate; intros [_ ?]; discriminate. Qed.
Lemma scales_members : forall r l lt ls pv k s, In (k, s) (scales_from_f r lt ls pv l) -> exists c, In c l /\ s = tick_scale_f (snd c) r.
Proof.
  induction l as [|[t q] l IH]; intros lt ls pv k s H; cbn [scales_from_f] in H; [contradiction|]. destruct (Qeq_bool (tick_scale_f q r) ls).
  - destruct (IH _ _ _ _ _ H) as (c & K1 & K2). exists c. split; [right|]; auto.
  - destruct H as [H|H]; [injection H as _ <-; exists (t, q); split; [left|]; auto|]. destruct (IH _ _ _ _ _ H) as (c & K1 & K2). exists c. split; [right|]; auto.
Qed.
