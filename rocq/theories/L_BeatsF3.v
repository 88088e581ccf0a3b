(** Lemmas about M_BeatsF: periods, termination, drift. *)
From Coq Require Import Sorted Permutation Lia Lqa Qfield Qabs Qpower Qround.
From Verif Require Import PyBase M_Float M_Beats M_BeatsF S_Beats S_Snap S_ShiftF S_BeatsF L_Base L_Float L_Float2 L_Snap L_NoteF L_NoteF2 L_UtilsF L_UtilsF2 L_UtilsF3 P_Rounding L_ShiftF L_Beats L_Beats2 L_Beats3 L_Beats4 L_BeatsF L_BeatsF2.
Open Scope Q_scope.

Lemma div48 : forall x P, 0 <= x -> 0 <= P -> x * u + P * (18 * u) <= (x + P) / inject_Z (2 ^ 48).
Proof.
  intros x P X P0. assert (E : (x + P) / inject_Z (2 ^ 48) == (x + P) * (32 * u)) by (unfold Qdiv; assert (Z1 : / inject_Z (2 ^ 48) == 32 * u) by reflexivity; rewrite Z1; reflexivity).
  rewrite E, U_eq. lra.
Qed.
Lemma f_order : forall t0 q sigs others start l, 0 < q -> meters sigs -> wide sigs -> is_double start -> (forall s, In s sigs -> is_double (ts_time s)) ->
  beats_f_are [(t0, q)] sigs others start l -> StronglySorted Qle l.
Proof.
  intros t0 q sigs others start l Q0 M W D DS B. destruct (init_inv1 t0 q sigs start W D) as [st [E [L I]]]. apply (beats_f_runs _ _ _ _ _ st E) in B.
  destruct (runsf_pairs (sort_sigs sigs) q _ Q0 (meters_sort sigs M) (fun s X => DS s (proj1 (sort_in sigs s) X)) st l B I) as [_ [A _]]. exact A.
Qed.

Lemma f_period : forall t0 q sigs others start l x y, 0 < q -> meters sigs -> wide sigs -> is_double start -> (forall s, In s sigs -> is_double (ts_time s)) ->
  beats_f_are [(t0, q)] sigs others start l -> consecutive l x y -> forall s k, in_force sigs s x -> beats_per_quarter s k ->
  let P := 60 / (k * q) in
  Qabs (y - (x + P)) <= (Qabs x + P) / inject_Z (2 ^ 48) \/
  (exists s', In s' sigs /\ y = ts_time s' /\ x < ts_time s' /\ (forall s'', In s'' sigs -> x < ts_time s'' -> ts_time s' <= ts_time s'') /\
     ts_time s' <= x + P + (Qabs x + P) / inject_Z (2 ^ 48) + (2 # 100000000) + (2 # 100000) * Qabs (ts_time s')).
Proof.
  intros t0 q sigs others start l x y Q0 M W D DS B C s k IF BQ P. destruct (init_inv1 t0 q sigs start W D) as [st [E [L I]]]. apply (beats_f_runs _ _ _ _ _ st E) in B.
  pose proof (meters_sort sigs M) as M'. assert (DS' : forall s, In s (sort_sigs sigs) -> is_double (ts_time s)) by (intros s1 X; apply DS; apply sort_in; auto).
  destruct (runsf_pairs (sort_sigs sigs) q _ Q0 M' DS' st l B I) as [PR _]. destruct (PR x y C) as [st1 [I1 [E1 [E2 _]]]].
  destruct (wide_sorted sigs W) as [W' SS]. pose proof (inv1_good _ _ _ M' I1) as G.
  assert (IFS : in_force (sort_sigs sigs) s x). { destruct IF as [F1 F2]. split; [apply sort_in; auto|]. destruct F2 as [[F2 F3]|F2]; [left; split; auto; intros s' X; apply F3; apply sort_in; auto|right; intros s' X; apply F2; apply sort_in; auto]. }
  assert (SG : b_sig st1 = Some s).
  { destruct (b_sig st1) as [s1|] eqn:X.
    - f_equal. eapply in_force_unique; [apply wide_distinct; exact W'| |exact IFS]. rewrite <- E1. eapply inv1_in_force; eauto.
    - exfalso. pose proof (v_fine _ _ _ I1) as F. unfold fine in F. rewrite X in F. destruct IFS as [Y _]. rewrite F in Y. destruct Y. }
  destruct (after_f_near (b_last st1) (b_sig st1) q G Q0) as [P0 AN].
  assert (PE : 60 / bpm_of (b_sig st1) q == P). { unfold P. rewrite bpm_rate. rewrite SG. rewrite (rate_spec s k BQ). reflexivity. }
  rewrite E1 in AN. rewrite PE in P0, AN. pose proof (Qabs_nonneg x) as NX. pose proof (div48 (Qabs x) P NX ltac:(lra)) as D48.
  destruct (inv1_next (sort_sigs sigs) q st1 Q0 M' DS' I1) as [_ [K _]]. rewrite E1 in K. set (nb := after_f x (bpm_of_f (b_sig st1) q)) in *. clearbody nb.
  destruct K as [K1 K2 K3 K4 K5|s' [r [A1 A2]] GT K1 K2 K3].
  - left. rewrite <- E2, K1. lra.
  - right. exists s'. pose proof (v_ok _ _ _ I1) as OK. destruct (fine_ahead _ _ W' SS (v_fine _ _ _ I1) (proj2 (proj2 OK)) (v_none _ _ _ I1)) as [_ AH].
    assert (IN : In s' (sort_sigs sigs)).
    { pose proof (v_fine _ _ _ I1) as F. unfold fine in F. rewrite SG in F. destruct F as [l0 [F1 _]]. rewrite F1. apply in_or_app. right. destruct K3 as [[K3 _]|[K3 _]]; [left; congruence|right; rewrite K3; left; auto]. }
    split; [apply sort_in; auto|]. split; [congruence|].
    assert (LS : x < ts_time s') by (rewrite <- E1; apply ahead_after; [apply OK|rewrite A1; left; auto]). split; auto. split.
    + intros s2 I2 L2. assert (X : In s2 (ahead st1)) by (apply AH; [apply sort_in; auto|rewrite E1; auto]). rewrite A1 in X. destruct X as [<-|X]; [lra|].
      rewrite A2 in X. destruct OK as [_ [OS _]]. destruct K3 as [[K3 [K4 _]]|[K3 _]].
      * rewrite K3 in OS. cbn [sig_list app] in OS. apply SSL_cons in OS as [OS _]. rewrite K4 in X. specialize (OS s2 X). lra.
      * rewrite K3 in OS. destruct (SSL_app _ _ OS) as [OS1 _]. apply SSL_cons in OS1 as [OS1 _]. specialize (OS1 s2 X). lra.
    + apply Qabs_Qle_condition in AN. pose proof (Qabs_nonneg (ts_time s')) as NS. apply gtc_f_true in GT as [GT|GT]; [lra|]. apply Qabs_Qle_condition in GT. lra.
Qed.

(** ** progress *)
Lemma ceil_steps : forall x c, 0 < c -> x <= inject_Z (Z.of_nat (Z.to_nat (Qceiling (x / c)))) * c.
Proof.
  intros x c C0. assert (E : x / c * c == x) by (field; lra). rewrite <- E at 1. apply Qmult_le_compat_r; [|lra].
  pose proof (Qle_ceiling (x / c)) as C. apply Qle_trans with (1 := C). rewrite <- Zle_Qle. lia.
Qed.
Lemma rate_bpq : forall s, beats_per_quarter s (rate (Some s)).
Proof.
  intros s. unfold rate; cbn [bpm_of]. unfold qpm_to_bpm. split; [|split].
  - intros U [C1 C2]. replace (existsb (Z.eqb (ts_den s)) [1; 2; 4; 8; 16; 32]%Z) with true by (symmetry; apply existsb_exists; exists (ts_den s); split; auto; apply Z.eqb_refl).
    destruct (Z.eqb_spec (ts_num s) 3); [contradiction|]. destruct C1 as [x X]. replace (ts_num s mod 3 =? 0)%Z with true; [field|]. symmetry. apply Z.eqb_eq. rewrite X, Z.mul_comm. apply Z_mod_mult.
  - intros U C. replace (existsb (Z.eqb (ts_den s)) [1; 2; 4; 8; 16; 32]%Z) with true by (symmetry; apply existsb_exists; exists (ts_den s); split; auto; apply Z.eqb_refl).
    destruct (Z.eqb_spec (ts_num s) 3); [field|]. destruct (Z.eqb_spec (ts_num s mod 3) 0) as [Y|Y]; [|field]. exfalso. apply C. split; auto. exists (ts_num s / 3)%Z. rewrite (Z_div_mod_eq_full (ts_num s) 3) at 1. lia.
  - intros U. destruct (existsb (Z.eqb (ts_den s)) [1; 2; 4; 8; 16; 32]%Z) eqn:X; [|reflexivity]. exfalso. apply U. apply existsb_exists in X as [y [I X]]. apply Z.eqb_eq in X. subst y. exact I.
Qed.
Definition slowf (P start stop : Q) (all : list tsig) (q : Q) : Prop :=
  (forall s, In s all -> P <= 60 / bpm_of (Some s) q) /\ (all = [] -> P <= 60 / q) /\ 0 < P /\ (Qabs start + Qabs stop) <= inject_Z (2 ^ 50) * P.
Lemma inv1_gap : forall all q start stop st P, 0 < q -> meters all -> inv1 all q st -> slowf P start stop all q -> start <= b_last st -> b_last st < stop ->
  b_last st + P / 2 <= after_f (b_last st) (bpm_of_f (b_sig st) q).
Proof.
  intros all q start stop st P Q0 M I [S1 [S2 [P0 SB]]] L1 L2. pose proof (inv1_good _ _ _ M I) as G. destruct (after_f_near (b_last st) (b_sig st) q G Q0) as [R0 AN].
  assert (LE : P <= 60 / bpm_of (b_sig st) q).
  { pose proof (v_fine _ _ _ I) as F. unfold fine in F. destruct (b_sig st) as [s|]; [apply S1; destruct F as [l [F _]]; rewrite F; apply in_or_app; right; left; auto|apply S2; auto]. }
  set (R := 60 / bpm_of (b_sig st) q) in *. clearbody R. set (nb := after_f _ _) in *. clearbody nb. apply Qabs_Qle_condition in AN.
  assert (AB : Qabs (b_last st) <= Qabs start + Qabs stop).
  { apply Qabs_Qle_condition. pose proof (Qle_Qabs stop). pose proof (Qle_Qabs (- start)) as Y. rewrite Qabs_opp in Y. pose proof (Qabs_nonneg start). pose proof (Qabs_nonneg stop). lra. }
  change (inject_Z (2 ^ 50)) with 1125899906842624 in SB. rewrite U_eq in *. setoid_replace (P / 2) with ((1#2) * P) by field. lra.
Qed.
Lemma f_terminates : forall all q start stop P, 0 < q -> meters all -> (forall s, In s all -> is_double (ts_time s)) -> slowf P start stop all q ->
  forall k m st, inv1 all q st -> start <= b_last st -> (List.length (ahead st) <= k)%nat -> stop - b_last st <= inject_Z (Z.of_nat m) * (P / 2) ->
  exists l, runsf stop st l /\ StronglySorted Qlt l /\ forall x, In x l -> b_last st <= x.
Proof.
  intros all q start stop P Q0 M D S. assert (P0 : 0 < P / 2) by (destruct S as [_ [_ [S _]]]; apply Qlt_shift_div_l; lra). assert (MM : forall x : Q, exists m, x <= inject_Z (Z.of_nat m) * (P / 2)).
  { intros x. exists (Z.to_nat (Qceiling (x / (P / 2)))). apply ceil_steps. auto. }
  induction k as [|k IHk]; induction m as [|m IHm]; intros st I L0 LK LM.
  1,3: (exists []; split; [apply RF0; change (inject_Z (Z.of_nat 0)) with 0 in LM; lra|split; [constructor|intros x []]]).
  all: (destruct (Qlt_le_dec (b_last st) stop) as [L1|L1]; [|exists []; split; [apply RF0; auto|split; [constructor|intros x []]]]);
    pose proof (inv1_gap _ _ _ _ _ _ Q0 M I S L0 L1) as GAP; destruct (inv1_next all q st Q0 M D I) as [I' [_ [_ [MO [LL [K|[K1 K2]]]]]]].
  - destruct (IHm (next_beat_f st) I') as [l [R [SO LO]]]; [lra|lia| |].
    { rewrite K. rewrite Nat2Z.inj_succ in LM. unfold Z.succ in LM. rewrite inject_Z_plus in LM. change (inject_Z 1) with 1 in LM. lra. }
    rewrite K in LO. exists (b_last st :: l). split; [apply RFS; auto|]. split; [constructor; auto; rewrite Forall_forall; intros x X; specialize (LO x X); lra|]. intros x [<-|X]; [lra|]. specialize (LO x X). lra.
  - lia.
  - destruct (IHm (next_beat_f st) I') as [l [R [SO LO]]]; [lra|lia| |].
    { rewrite K. rewrite Nat2Z.inj_succ in LM. unfold Z.succ in LM. rewrite inject_Z_plus in LM. change (inject_Z 1) with 1 in LM. lra. }
    rewrite K in LO. exists (b_last st :: l). split; [apply RFS; auto|]. split; [constructor; auto; rewrite Forall_forall; intros x X; specialize (LO x X); lra|]. intros x [<-|X]; [lra|]. specialize (LO x X). lra.
  - destruct (MM (stop - b_last (next_beat_f st))) as [m' HM]. destruct (IHk m' (next_beat_f st) I') as [l [R [SO LO]]]; [lra|lia|auto|].
    exists (b_last st :: l). split; [apply RFS; auto|]. split; [constructor; auto; rewrite Forall_forall; intros x X; specialize (LO x X); lra|]. intros x [<-|X]; [lra|]. specialize (LO x X). lra.
Qed.
Lemma f_returns : forall t0 q sigs others start P, 0 < q -> meters sigs -> wide sigs -> is_double start -> (forall s, In s sigs -> is_double (ts_time s)) -> 0 < P ->
  (forall s k, In s sigs -> beats_per_quarter s k -> P <= 60 / (k * q)) -> (sigs = [] -> P <= 60 / q) ->
  Qabs start + Qabs (piece_end [(t0, q)] (sort_sigs sigs) others) <= inject_Z (2 ^ 50) * P ->
  exists l, beats_f_are [(t0, q)] sigs others start l /\ StronglySorted Qlt l.
Proof.
  intros t0 q sigs others start P Q0 M W D DS P0 H1 H2 H3. destruct (init_inv1 t0 q sigs start W D) as [st [E [L I]]]. pose proof (meters_sort sigs M) as M'.
  assert (DS' : forall s, In s (sort_sigs sigs) -> is_double (ts_time s)) by (intros s1 X; apply DS; apply sort_in; auto).
  assert (S : slowf P start (piece_end [(t0, q)] (sort_sigs sigs) others) (sort_sigs sigs) q).
  { split; [|split; [|split; auto]].
    - intros s X. rewrite bpm_rate. apply (H1 s); [apply sort_in; auto|apply rate_bpq].
    - intros X. apply H2. pose proof (sort_perm sigs) as PP. rewrite X in PP. apply Permutation_sym, Permutation_nil in PP. auto. }
  set (stop := piece_end _ _ _) in *. destruct (f_terminates _ q start stop P Q0 M' DS' S (List.length (ahead st)) (Z.to_nat (Qceiling ((stop - b_last st) / (P / 2)))) st I) as [l [R [SO _]]]; [rewrite L; lra|lia| |].
  - apply ceil_steps. apply Qlt_shift_div_l; lra.
  - exists l. split; auto. apply (beats_f_runs _ _ _ _ _ st E). exact R.
Qed.

(** ** one tempo, no signature *)
Lemma f_absorbed : forall t0 q others start, start < piece_end [(t0, q)] [] others -> after_f start q == start ->
  forall fuel, get_beats_f fuel [(t0, q)] [] others start = Ok None.
Proof.
  intros t0 q others start L A fuel. unfold get_beats_f. change (sort_sigs []) with (@nil tsig). cbn [beats_init skip_tempo bind]. f_equal. set (stop := piece_end _ _ _) in *. clearbody stop.
  assert (G : forall fuel x, x == start -> beat_loop_f fuel stop (mkBS x q [] true None []) = None); [|apply G; reflexivity].
  induction fuel0 as [|k IH]; intros x X; cbn [beat_loop_f b_last]; (replace (Qltb x stop) with true by (symmetry; apply Qltb_lt; lra)); auto.
  assert (NX : next_beat_f (mkBS x q [] true None []) = mkBS (after_f x q) q [] true None []) by reflexivity. rewrite NX. rewrite IH; auto.
  assert (Y : after_f x q = after_f start q) by (unfold after_f; apply fl_m; rewrite X; reflexivity). rewrite Y. auto.
Qed.
