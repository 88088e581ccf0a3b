(** Pieces in double precision and in exact arithmetic have the same ticks. *)
From Coq Require Import QArith Qabs Qround Lia Lqa Sorted.
From Verif Require Import PyBase L_Base M_SortedDict M_Note L_Note M_Ticks S_Ticks L_Ticks M_Load M_Write M_Meta M_Song M_Float S_Float
  L_Float L_Float2 L_Float3 L_Float4 L_Float5 M_SongF.
Open Scope Z_scope.

(** ** generic *)
Lemma mapM_rel : forall A A' B B' (f : A -> res B) (g : A' -> res B') (S : A -> A' -> Prop) (R : B -> B' -> Prop) l l',
  Forall2 S l l' -> (forall a a' b, In a l -> S a a' -> f a = Ok b -> exists b', g a' = Ok b' /\ R b b') ->
  forall bs, mapM f l = Ok bs -> exists bs', mapM g l' = Ok bs' /\ Forall2 R bs bs'.
Proof.
  intros A A' B B' f g S R l l' H. induction H as [|a a' l l' Ha Hl IH]; intros F bs E; [injection E as <-; exists []; split; [reflexivity|constructor]|].
  cbn [mapM] in *. destruct (f a) as [b|] eqn:Ef; [|discriminate]. destruct (F a a' b (or_introl eq_refl) Ha Ef) as [b' [Eg Rb]]. rewrite Eg.
  destruct (mapM f l) as [bs0|] eqn:Em; [|discriminate]. destruct (IH (fun x x' y Hx => F x x' y (or_intror Hx)) bs0 eq_refl) as [bs' [Em' Rs]]. rewrite Em'.
  injection E as <-. eexists. split; [reflexivity|constructor; auto].
Qed.
Lemma Forall2_eq : forall A (l l' : list A), Forall2 eq l l' -> l = l'.
Proof. intros A l l' H. induction H; subst; auto. Qed.
Lemma Forall2_same : forall A (l : list A), Forall2 eq l l.
Proof. induction l; constructor; auto. Qed.
Lemma Forall2_rev' : forall A B (R : A -> B -> Prop) l l', Forall2 R l l' -> Forall2 R (rev l) (rev l').
Proof. intros A B R l l' H. induction H; cbn [rev]; [constructor|]. apply Forall2_app; auto. Qed.
Lemma sort_rel : forall A (R : A -> A -> Prop) lt, (forall a a' b b', R a a' -> R b b' -> lt a b = lt a' b') ->
  forall l l', Forall2 R l l' -> Forall2 R (py_sort lt l) (py_sort lt l').
Proof.
  intros A R lt C. assert (I : forall x x' l l', R x x' -> Forall2 R l l' -> Forall2 R (insert_stable lt x l) (insert_stable lt x' l')).
  { intros x x' l l' X H. induction H as [|y y' l l' Y H IH]; cbn [insert_stable]; [constructor; auto|]. rewrite <- (C y y' x x') by auto. destruct (lt y x); constructor; auto. }
  intros l l' H. unfold py_sort. induction H; cbn [fold_right]; [constructor|apply I; auto].
Qed.

(** ** scales *)
Definition ps (r : Z) (x y : Z * Q) : Prop := fst x = fst y /\ exists t, 256 <= t < 2 ^ 24 /\ (snd x == inject_Z t / (1000000 * inject_Z r))%Q /\ snd y = sv r t.
Lemma sv_inj : forall r a b, 0 < r -> 256 <= a < 2 ^ 24 -> 256 <= b < 2 ^ 24 -> (sv r a == sv r b)%Q -> a = b.
Proof.
  assert (H : forall r a b, 0 < r -> 256 <= a < 2 ^ 24 -> 256 <= b < 2 ^ 24 -> (sv r a == sv r b)%Q -> a <= b).
  { intros r a b R A B E. destruct (Z_le_gt_dec a b) as [L|L]; auto. exfalso. pose proof (sv_near r a ltac:(lia) R) as NA. pose proof (sv_near r b ltac:(lia) R) as NB.
    pose proof (Zq r R) as RQ. set (d := (1000000 * inject_Z r)%Q) in *. assert (D : (0 < d)%Q) by (unfold d; lra).
    destruct NA as [_ [_ [NA _]]]. destruct NB as [_ [_ [_ NB]]]. rewrite E in NA. clear E.
    assert (X : (inject_Z a / d <= lp 3 * (lp 3 * (inject_Z b / d)))%Q).
    { apply Qle_trans with (lp 3 * sv r b)%Q; auto. rewrite !(Qmult_comm (lp 3)). apply Qmult_le_compat_r; [rewrite (Qmult_comm _ (lp 3)); auto|]. pose proof (lp_pos 3). lra. }
    assert (Y : (inject_Z a <= lp 3 * lp 3 * inject_Z b)%Q).
    { apply Qmult_le_compat_r with (z := d) in X; [|lra]. setoid_replace (inject_Z a / d * d)%Q with (inject_Z a) in X by (field; lra).
      setoid_replace (lp 3 * (lp 3 * (inject_Z b / d)) * d)%Q with (lp 3 * lp 3 * inject_Z b)%Q in X by (field; lra). auto. }
    assert (Z1 : (inject_Z b + 1 <= inject_Z a)%Q) by (change 1%Q with (inject_Z 1); rewrite <- inject_Z_plus, <- Zle_Qle; lia).
    assert (Z2 : (inject_Z b <= 16777216)%Q) by (change 16777216%Q with (inject_Z 16777216); rewrite <- Zle_Qle; lia).
    assert (Z3 : (0 <= inject_Z b)%Q) by (change 0%Q with (inject_Z 0); rewrite <- Zle_Qle; lia).
    assert (P : (lp 3 * lp 3 <= 1 + (1 # 33554432))%Q) by (vm_compute; discriminate).
    assert (W : (lp 3 * lp 3 * inject_Z b <= (1 + (1 # 33554432)) * inject_Z b)%Q) by (apply Qmult_le_compat_r; auto). lra. }
  intros r a b R A B E. pose proof (H r a b R A B E). assert (E' : (sv r b == sv r a)%Q) by (rewrite E; reflexivity). pose proof (H r b a R B A E'). lia.
Qed.
Lemma exact_scale : forall t r, 0 < t -> 0 < r -> exists s, scale_of_tempo t r = Ok s /\ (s == inject_Z t / (1000000 * inject_Z r))%Q.
Proof.
  intros t r T R. pose proof (Zq t T) as TQ. pose proof (Zq r R) as RQ. unfold scale_of_tempo. destruct (Z.eqb_spec t 0); [lia|]. unfold scale_of_bpm.
  assert (D : (0 < 60000000 / inject_Z t * inject_Z r)%Q) by (apply Qmult_lt_0_compat; auto; apply Qlt_shift_div_l; lra).
  destruct (Qeq_bool (60000000 / inject_Z t * inject_Z r) 0) eqn:E; [apply Qeq_bool_iff in E; lra|]. eexists. split; [reflexivity|]. field. repeat split; lra.
Qed.
Lemma ps_tie : forall r s s' l l', 0 < r -> ps r s s' -> ps r l l' -> Qeq_bool (snd s) (snd l) = Qeq_bool (snd s') (snd l').
Proof.
  intros r s s' l l' R [_ [t [T [S1 S2]]]] [_ [v [U [L1 L2]]]]. pose proof (Zq r R) as RQ. apply Bool.eq_iff_eq_true. rewrite !Qeq_bool_iff, S1, L1, S2, L2. split; intros H.
  - assert (E : (inject_Z t == inject_Z v)%Q). { setoid_replace (inject_Z t) with (inject_Z t / (1000000 * inject_Z r) * (1000000 * inject_Z r))%Q by (field; lra). rewrite H. field. lra. }
    assert (Ev : t = v) by (apply inject_Z_injective; exact E). rewrite Ev. reflexivity.
  - pose proof (sv_inj r t v R T U H) as Ev. rewrite Ev. reflexivity.
Qed.
Lemma loop_rel : forall r evs sc scf, 0 < r -> usual_tempi evs -> sc <> [] -> Forall2 (ps r) sc scf ->
  exists m mf, load_tempo_loop r evs sc = Ok m /\ tempo_loop_f r evs scf = Ok mf /\ Forall2 (ps r) m mf.
Proof.
  intros r. induction evs as [|[k t] evs IH]; intros sc scf R U N F; [exists sc, scf; auto|]. cbn [load_tempo_loop tempo_loop_f].
  pose proof (U (k, t) (or_introl eq_refl)) as T. cbn [snd] in T. assert (U' : usual_tempi evs) by (intros e He; apply U; right; auto).
  destruct (exact_scale t r ltac:(lia) R) as [s [Es Vs]]. destruct (sv_ok t r ltac:(lia) R) as [Ef _]. rewrite Es, Ef. cbn [bind].
  assert (P : ps r (k, s) (k, sv r t)) by (split; [reflexivity|exists t; auto]).
  destruct (k =? 0) eqn:K0.
  - apply Z.eqb_eq in K0. subst k. apply IH; auto. discriminate.
  - pose proof (Forall2_rev' _ _ _ _ _ F) as FR. destruct (rev sc) as [|[a l] rr] eqn:E1; [apply (f_equal (@rev _)) in E1; rewrite rev_involutive in E1; contradiction|].
    inversion FR as [|? [a' l'] ? rr' P1 P2 E2 E3]; subst. pose proof (ps_tie r _ _ _ _ R P P1) as TT. cbn [snd] in TT. rewrite TT.
    destruct (Qeq_bool (sv r t) l'); [apply IH; auto|]. apply IH; auto; [destruct sc; discriminate|]. apply Forall2_app; auto.
Qed.
Lemma load_rel : forall r evs, 0 < r -> usual_tempi evs -> exists m mf, load_tempo r evs = Ok m /\ load_tempo_f r evs = Ok mf /\ Forall2 (ps r) m mf.
Proof.
  intros r evs R U. unfold load_tempo, load_tempo_f. rewrite (default_sv r R). pose proof (Zq r R) as RQ. unfold scale_of_bpm.
  destruct (Qeq_bool (120 * inject_Z r) 0) eqn:E; [apply Qeq_bool_iff in E; lra|]. cbn [bind]. apply loop_rel; auto; [discriminate|]. constructor; [|constructor].
  split; [reflexivity|]. exists 500000. split; [lia|]. split; [|reflexivity]. cbn [snd]. change (inject_Z 500000) with 500000%Q. field. lra.
Qed.
Definition slow (x y : Z * meta) : Prop := fst x = fst y /\ (snd x = snd y \/ exists us us', snd x = MTempo us /\ snd y = MTempo us' /\ us - 1 <= us' <= us).
Lemma tempo_rel : forall p pf, 0 < p_res p -> p_res pf = p_res p -> Forall2 (ps (p_res p)) (p_scales p) (p_scales pf) ->
  forall l, tempo_messages p = Ok l -> exists lf, tempo_messages_f pf = Ok lf /\ Forall2 slow l lf.
Proof.
  intros p pf R E F l H. unfold tempo_messages, tempo_messages_f in *. rewrite E. set (r := p_res p) in *. pose proof (Zq r R) as RQ.
  eapply mapM_rel with (S := fun x y => fst x = fst y /\ 256 <= snd x < 2 ^ 24 /\ snd x - 1 <= snd y <= snd x); [| |exact H].
  - unfold write_tempo, write_tempo_f. clear H. induction F as [|x y sc scf [P1 [t [T [S1 S2]]]] F IH]; cbn [map]; constructor; auto. cbn [fst snd].
    assert (TQ : (0 < inject_Z t)%Q) by (apply Zq; lia).
    assert (X : Qfloor (60000000 / (60 / (snd x * inject_Z r))) = t).
    { rewrite S1. setoid_replace (60000000 / (60 / (inject_Z t / (1000000 * inject_Z r) * inject_Z r)))%Q with (inject_Z t) by (field; split; lra). apply Qfloor_Z. }
    rewrite X. split; auto. split; auto. rewrite S2. destruct (sv_ok t r ltac:(lia) R) as [Ef _]. apply (saved_le t r (sv r t)); auto. lia.
  - intros [k us] [k' us'] b _ [A1 [A2 A3]] B. cbn [fst snd] in *. subst k'. destruct (tempo_fits us) eqn:T; [|discriminate]. injection B as <-.
    assert (T' : tempo_fits us' = true) by (unfold tempo_fits; destruct (Z.leb_spec 0 us'), (Z.leb_spec us' 16777215); auto; lia). rewrite T'. eexists. split; [reflexivity|].
    split; [reflexivity|]. right. exists us, us'. cbn. auto.
Qed.
