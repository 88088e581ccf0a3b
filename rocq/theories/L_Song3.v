(** The timing track of a saved piece. *)
From Coq Require Import Sorted Permutation Lia Lqa Qabs Qround.
From Verif Require Import PyBase L_Base M_SortedDict M_Note L_Note L_Note2 M_Ticks S_Ticks L_Ticks M_Load S_Load L_Load2 M_Write S_Write L_Write M_Meta S_Meta L_Meta M_Song S_Song L_Song L_Song2.
Open Scope Z_scope.

Lemma default_eq : forall l, with_default l = (if needs_default l then [(4, 4, 0%Q)] else []) ++ l.
Proof.
  intros l. unfold with_default, needs_default.
  assert (G : forall r (x : Q), Qltb 0 (fold_left Qminb r x) = negb (Qle_bool x 0) && forallb (fun y => negb (Qle_bool y 0)) r).
  { induction r as [|y r IH]; intros x; cbn [fold_left forallb].
    - rewrite andb_true_r. unfold Qltb. reflexivity.
    - rewrite IH. rewrite andb_assoc. f_equal. destruct (Qminb_spec x y) as [[L ->]|[L ->]].
      + destruct (Qle_bool x 0) eqn:A; cbn; auto. symmetry. apply negb_true_iff. apply Qle_bool_false. apply Qle_bool_false in A. lra.
      + destruct (Qle_bool y 0) eqn:A; cbn; [rewrite andb_false_r; auto|]. rewrite andb_true_r. symmetry. apply negb_true_iff. apply Qle_bool_false. apply Qle_bool_false in A. lra. }
  destruct l as [|x l]; [reflexivity|]. rewrite G. cbn [forallb].
  assert (E : forallb (fun y => negb (Qle_bool y 0)) (map snd l) = forallb (fun x : Z * Z * Q => negb (Qle_bool (snd x) 0)) l) by (induction l; cbn; auto; f_equal; auto).
  rewrite E. destruct (negb _ && _); reflexivity.
Qed.

Lemma flat_nil : forall A B (g : A -> list B) l, (forall x, In x l -> g x = []) -> flat_map g l = [].
Proof. induction l as [|x l IH]; intros H; cbn; auto. rewrite (H x (or_introl eq_refl)). apply IH. intros; apply H; right; auto. Qed.
Lemma flat_F2 : forall A B C (P : A -> B -> Prop) (R : A -> C -> Prop) (g : B -> list C) l m,
  (forall a b, P a b -> exists c, g b = [c] /\ R a c) -> Forall2 P l m -> Forall2 R l (flat_map g m).
Proof. intros A B C P R g l m H F. induction F; cbn; [constructor|]. destruct (H _ _ H0) as [c [-> K]]. cbn. constructor; auto. Qed.
Lemma F2_r : forall A B (P : A -> B -> Prop) (R : B -> Prop) l m, (forall a b, P a b -> R b) -> Forall2 P l m -> Forall R m.
Proof. intros A B P R l m H F. induction F; constructor; eauto. Qed.

Section TIMING.
Variables (sg : song) (f : Z -> Q).
Let p := sg_pm sg.
Let d := sg_meta sg.
Hypothesis Fpos : forall i, 0 <= i -> (0 < f i)%Q.
Hypothesis Near : forall t, exists k, time_to_tick p t = Ok k /\ nearest (sum_to f) t k.

Lemma tick_zero : time_to_tick p 0 = Ok 0.
Proof.
  destruct (Near 0%Q) as [k [E N]]. rewrite E. f_equal. destruct N as [K N].
  apply (exact_tick f 0 k 0); auto; [lia|rewrite sum_to_0; reflexivity|]. intros i I. rewrite !Qabsb_Qabs. apply N; auto.
Qed.

Lemma timing_spec : forall t0, timing_track sg = Ok t0 -> tempo_events (write_tempo (p_res p) (p_scales p)) ->
  exists evs last, t0 = view FMeta evs ++ [(last + 1, FMsg MEnd)] /\
    StronglySorted (fun a b : Z * meta => fst a <= fst b) evs /\ (forall e, In e evs -> 0 <= fst e <= last) /\ 0 <= last /\
    tempi_in evs = write_tempo (p_res p) (p_scales p) /\
    (forall k us, In (k, MTempo us) evs -> 0 < us) /\
    (forall k s, In (k, MKey s) evs -> exists x, In x (md_keys d) /\ py_nth key_names (fst x) = Ok s) /\
    (forall k n m, In (k, MTime n m) evs -> 0 < m /\ (n = 4 \/ exists x, In x (md_times d) /\ fst (fst x) = n)) /\
    (exists l1, Permutation l1 (md_keys d) /\
       Forall2 (fun x y => time_to_tick p (snd x) = Ok (fst y) /\ py_nth key_names (fst x) = Ok (snd y)) l1 (keys_in evs) /\
       (StronglySorted (fun a b => (snd a <= snd b)%Q) (md_keys d) -> l1 = md_keys d)) /\
    (exists l1, Permutation l1 (with_default (md_times d)) /\
       Forall2 (fun x y => time_to_tick p (snd x) = Ok (fst y) /\ snd y = fst x) l1 (times_in evs) /\
       (StronglySorted (fun a b => (snd a <= snd b)%Q) (with_default (md_times d)) -> l1 = with_default (md_times d))) /\
    (exists l1, Permutation l1 (md_lyrics d) /\
       Forall2 (fun x y => time_to_tick p (snd x) = Ok (fst y) /\ snd y = fst x) l1 (lyrics_in evs) /\
       (StronglySorted (fun a b => (snd a <= snd b)%Q) (md_lyrics d) -> l1 = md_lyrics d)).
Proof.
  intros t0 H TE. unfold timing_track in H. fold p d in H.
  destruct (tempo_messages p) as [tempi|] eqn:E1; [|discriminate].
  destruct (signature_messages p (md_times d)) as [sigs|] eqn:E2; [|discriminate].
  destruct (key_messages p (md_keys d)) as [keys|] eqn:E3; [|discriminate].
  destruct (lyric_messages p (md_lyrics d)) as [lyrics|] eqn:E4; [|discriminate]. cbn [bind] in H. cbv zeta in H.
  set (def := if needs_default (md_times d) then [(0, MTime 4 4)] else []) in *.
  set (X := def ++ tempi ++ sigs ++ keys ++ lyrics) in *.
  assert (T1 : tempi = map (fun e => (fst e, MTempo (snd e))) (write_tempo (p_res p) (p_scales p))).
  { apply mapM_inv in E1. clear - E1. induction E1 as [|a b l m H F IH]; cbn; auto. f_equal; auto. destruct (tempo_fits (snd a)); [injection H as <-; auto|discriminate]. }
  assert (T2 : Forall2 (fun x m => exists k, time_to_tick p (snd x) = Ok k /\ signature_fits (fst (fst x)) (snd (fst x)) = true /\ m = (k, MTime (fst (fst x)) (snd (fst x)))) (md_times d) sigs).
  { apply mapM_inv in E2. eapply Forall2_imp; [|exact E2]. cbn. intros a b _ _ K. destruct (time_to_tick p (snd a)) as [k|]; [|discriminate]. cbn [bind] in K.
    destruct (signature_fits _ _) eqn:SF; [|discriminate]. injection K as <-. eauto. }
  assert (T3 : Forall2 (fun x m => exists k s, time_to_tick p (snd x) = Ok k /\ py_nth key_names (fst x) = Ok s /\ m = (k, MKey s)) (md_keys d) keys).
  { apply mapM_inv in E3. eapply Forall2_imp; [|exact E3]. cbn. intros a b _ _ K. destruct (time_to_tick p (snd a)) as [k|]; [|discriminate]. cbn [bind] in K.
    destruct (py_nth key_names (fst a)) as [s|]; [|discriminate]. cbn [bind] in K. injection K as <-. eauto. }
  assert (T4 : Forall2 (fun x m => exists k, time_to_tick p (snd x) = Ok k /\ m = (k, MLyric (fst x))) (md_lyrics d) lyrics).
  { apply mapM_inv in E4. eapply Forall2_imp; [|exact E4]. cbn. intros a b _ _ K. destruct (time_to_tick p (snd a)) as [k|]; [|discriminate]. cbn [bind] in K.
    injection K as <-. eauto. }
  assert (I1 : forall e, In e tempi -> exists us, snd e = MTempo us /\ 0 <= fst e /\ 0 < us).
  { rewrite T1. intros e K. apply in_map_iff in K as [x [<- K]]. exists (snd x). destruct TE as [_ TE]. specialize (TE x K). cbn. tauto. }
  assert (I2 : forall e, In e sigs -> exists n m, snd e = MTime n m /\ 0 <= fst e /\ 0 < m /\ exists x, In x (md_times d) /\ fst (fst x) = n).
  { intros e K. destruct (F2_in_r _ _ _ _ _ _ T2 K) as [x [X1 [k [X2 [X3 ->]]]]]. exists (fst (fst x)), (snd (fst x)). cbn. split; auto.
    split; [eapply near_nonneg; eauto|]. split; [|eauto]. unfold signature_fits in X3. rewrite !andb_true_iff in X3. lia. }
  assert (I3 : forall e, In e keys -> exists s, snd e = MKey s /\ 0 <= fst e /\ exists x, In x (md_keys d) /\ py_nth key_names (fst x) = Ok s).
  { intros e K. destruct (F2_in_r _ _ _ _ _ _ T3 K) as [x [X1 [k [s [X2 [X3 ->]]]]]]. exists s. cbn. split; auto. split; [eapply near_nonneg; eauto|eauto]. }
  assert (I4 : forall e, In e lyrics -> exists s, snd e = MLyric s /\ 0 <= fst e).
  { intros e K. destruct (F2_in_r _ _ _ _ _ _ T4 K) as [x [X1 [k [X2 ->]]]]. exists (fst x). cbn. split; auto. eapply near_nonneg; eauto. }
  assert (I0 : forall e, In e def -> e = (0, MTime 4 4)) by (subst def; intros e K; destruct (needs_default _); cbn in K; [destruct K as [K|[]]; auto|tauto]).
  assert (RX : Forall ranked X).
  { apply Forall_forall. intros e K. unfold ranked. subst X. rewrite !in_app_iff in K. destruct K as [K|[K|[K|[K|K]]]].
    - rewrite (I0 e K). discriminate.
    - destruct (I1 e K) as [? [-> _]]; discriminate.
    - destruct (I2 e K) as [? [? [-> _]]]; discriminate.
    - destruct (I3 e K) as [? [-> _]]; discriminate.
    - destruct (I4 e K) as [? [-> _]]; discriminate. }
  assert (NX : forall e, In e X -> 0 <= fst e).
  { intros e K. subst X. rewrite !in_app_iff in K. destruct K as [K|[K|[K|[K|K]]]].
    - rewrite (I0 e K). cbn. lia.
    - destruct (I1 e K) as [? [_ [? _]]]; auto.
    - destruct (I2 e K) as [? [? [_ [? _]]]]; auto.
    - destruct (I3 e K) as [? [_ [? _]]]; auto.
    - destruct (I4 e K) as [? [_ ?]]; auto. }
  set (evs := py_sort meta_lt X) in *.
  assert (SE : forall e, In e evs <-> In e X).
  { intros e. subst evs. split; apply Permutation_in; [apply Permutation_sym|]; apply py_sort_perm. }
  pose proof (sorted_ticks X RX) as SS. fold evs in SS.
  destruct (rev evs) as [|e0 re] eqn:RE; [discriminate|]. apply Ok_inj in H. subst t0.
  assert (EV : evs = rev re ++ [e0]) by (rewrite <- (rev_involutive evs), RE; reflexivity).
  exists evs, (fst e0). split; [reflexivity|]. split; [exact SS|].
  assert (LAST : forall e, In e evs -> fst e <= fst e0).
  { intros e K. rewrite EV in K, SS. apply in_app_iff in K as [K|[<-|[]]]; [|lia].
    clear - K SS. induction (rev re) as [|a l IH]; [destruct K|]. cbn in SS. apply StronglySorted_inv in SS as [S1 S2]. destruct K as [<-|K]; auto.
    rewrite Forall_forall in S2. apply S2. apply in_app_iff. right. left. auto. }
  split; [intros e K; split; [apply NX, SE; auto|auto]|]. split; [apply NX, SE; rewrite EV; apply in_app_iff; right; left; auto|].
  assert (Sel : forall B (g : Z * meta -> list (Z * B)), flat_map g X = flat_map g def ++ flat_map g tempi ++ flat_map g sigs ++ flat_map g keys ++ flat_map g lyrics)
    by (intros; subst X; rewrite !flat_map_app; reflexivity).
  split; [|split; [|split; [|split; [|split; [|split]]]]].
  - unfold tempi_in. subst evs. rewrite (select_sorted _ _ (1 * 256 * 256)); auto.
    + rewrite Sel. rewrite (flat_nil _ _ _ def), (flat_nil _ _ _ sigs), (flat_nil _ _ _ keys), (flat_nil _ _ _ lyrics).
      * rewrite !app_nil_r. cbn [app]. rewrite T1, flat_map_concat_map, map_map, <- flat_map_concat_map. cbn [snd fst].
        assert (M : forall l : list (Z * Z), flat_map (fun x => [(fst x, snd x)]) l = l) by (induction l as [|[a b] l IH]; cbn; auto; f_equal; auto).
        rewrite M. destruct TE as [TE _]. apply (sort_id _ fst). exact TE.
      * intros e K. destruct (I4 e K) as [? [-> _]]; auto.
      * intros e K. destruct (I3 e K) as [? [-> _]]; auto.
      * intros e K. destruct (I2 e K) as [? [? [-> _]]]; auto.
      * intros e K. rewrite (I0 e K); auto.
    + intros [t m] b; destruct m; cbn; try discriminate. intros [= <-]. auto.
    + intros [t m]; destruct m; cbn; lia.
  - intros k us K. apply SE in K. subst X. rewrite !in_app_iff in K. destruct K as [K|[K|[K|[K|K]]]].
    + apply I0 in K. discriminate.
    + destruct (I1 _ K) as [? [E [_ ?]]]. cbn in E. injection E as ->. auto.
    + destruct (I2 _ K) as [? [? [E _]]]; discriminate.
    + destruct (I3 _ K) as [? [E _]]; discriminate.
    + destruct (I4 _ K) as [? [E _]]; discriminate.
  - intros k us K. apply SE in K. subst X. rewrite !in_app_iff in K. destruct K as [K|[K|[K|[K|K]]]].
    + apply I0 in K. discriminate.
    + destruct (I1 _ K) as [? [E _]]; discriminate.
    + destruct (I2 _ K) as [? [? [E _]]]; discriminate.
    + destruct (I3 _ K) as [? [E [_ ?]]]. cbn in E. injection E as ->. auto.
    + destruct (I4 _ K) as [? [E _]]; discriminate.
  - intros k n m K. apply SE in K. subst X. rewrite !in_app_iff in K. destruct K as [K|[K|[K|[K|K]]]].
    + apply I0 in K. injection K as -> -> ->. split; [lia|auto].
    + destruct (I1 _ K) as [? [E _]]; discriminate.
    + destruct (I2 _ K) as [? [? [E [_ [? ?]]]]]. cbn in E. injection E as -> ->. split; auto.
    + destruct (I3 _ K) as [? [E _]]; discriminate.
    + destruct (I4 _ K) as [? [E _]]; discriminate.
  - unfold keys_in. subst evs. rewrite (select_sorted _ _ (3 * 256 * 256)); auto.
    + rewrite Sel. rewrite (flat_nil _ _ _ def), (flat_nil _ _ _ tempi), (flat_nil _ _ _ sigs), (flat_nil _ _ _ lyrics).
      * rewrite !app_nil_r. cbn [app]. apply (sort_returns p f Fpos Near); [tauto|]. eapply flat_F2; [|exact T3].
        cbn. intros a b [k [s [A1 [A2 ->]]]]. cbn. eexists. split; [reflexivity|]. auto.
      * intros e K. destruct (I4 e K) as [? [-> _]]; auto.
      * intros e K. destruct (I2 e K) as [? [? [-> _]]]; auto.
      * intros e K. destruct (I1 e K) as [? [-> _]]; auto.
      * intros e K. rewrite (I0 e K); auto.
    + intros [t m] b; destruct m; cbn; try discriminate. intros [= <-]. auto.
    + intros [t m]; destruct m; cbn; lia.
  - unfold times_in. subst evs. rewrite (select_sorted _ _ (2 * 256 * 256)); auto.
    + rewrite Sel. rewrite (flat_nil _ _ _ keys), (flat_nil _ _ _ tempi), (flat_nil _ _ _ lyrics).
      * rewrite !app_nil_r. cbn [app]. apply (sort_returns p f Fpos Near); [tauto|]. rewrite default_eq. apply Forall2_app.
        { subst def. destruct (needs_default _); cbn; repeat constructor; cbn; auto. apply tick_zero. }
        eapply flat_F2; [|exact T2]. cbn. intros a b [k [A1 [A2 ->]]]. cbn. eexists. split; [reflexivity|]. cbn. split; auto. destruct (fst a); auto.
      * intros e K. destruct (I4 e K) as [? [-> _]]; auto.
      * intros e K. destruct (I1 e K) as [? [-> _]]; auto.
      * intros e K. destruct (I3 e K) as [? [-> _]]; auto.
    + intros [t m] b; destruct m; cbn; try discriminate. intros [= <-]. auto.
    + intros [t m]; destruct m; cbn; lia.
  - unfold lyrics_in. subst evs. rewrite (select_sorted _ _ (4 * 256 * 256)); auto.
    + rewrite Sel. rewrite (flat_nil _ _ _ keys), (flat_nil _ _ _ tempi), (flat_nil _ _ _ sigs), (flat_nil _ _ _ def).
      * rewrite ?app_nil_r. cbn [app]. apply (sort_returns p f Fpos Near); [tauto|].
        eapply flat_F2; [|exact T4]. cbn. intros a b [k [A1 ->]]. cbn. eexists. split; [reflexivity|]. cbn. auto.
      * intros e K. rewrite (I0 e K); auto.
      * intros e K. destruct (I2 e K) as [? [? [-> _]]]; auto.
      * intros e K. destruct (I1 e K) as [? [-> _]]; auto.
      * intros e K. destruct (I3 e K) as [? [-> _]]; auto.
    + intros [t m] b; destruct m; cbn; try discriminate. intros [= <-]. auto.
    + intros [t m]; destruct m; cbn; lia.
Qed.
End TIMING.
