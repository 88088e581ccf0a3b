(** Lemmas about M_Song: how a save is refused. *)
From Coq Require Import Lia QArith Permutation.
From Verif Require Import PyBase M_SortedDict M_Note M_Ticks M_Meta M_Load M_Write M_Song S_Write S_Meta S_Song L_Base L_Song L_Song5 L_Song9 L_Meta.
Open Scope Z_scope.

Lemma mapM_only : forall A B (f : A -> res B) (e0 : exn) l e, (forall a e, In a l -> f a = Err e -> e = e0) -> mapM f l = Err e -> e = e0.
Proof.
  intros A B f e0. induction l as [|a l IH]; intros e H E; cbn [mapM] in E; [discriminate|]. destruct (f a) as [b|x] eqn:F; cbn [bind] in E.
  - destruct (mapM f l) as [bs|x] eqn:M; cbn [bind] in E; [discriminate|]. injection E as <-. apply IH; auto. intros a' e I. apply H. right. auto.
  - injection E as <-. apply (H a); [left; auto|auto].
Qed.
Section REFUSE.
Variables (sg : song) (dc : Z).
Let p := sg_pm sg.
Hypothesis Near : forall t, exists k, time_to_tick p t = Ok k.
Hypothesis NEs : p_scales p <> [].
Lemma tempo_err : forall e, tempo_messages p = Err e -> e = ValueError.
Proof. intros e. apply mapM_only. intros a e' _. destruct (tempo_fits (snd a)); [discriminate|]. intros H. injection H as <-. auto. Qed.
Lemma sig_err : forall l e, signature_messages p l = Err e -> e = ValueError.
Proof. intros l e. apply mapM_only. intros a e' _. destruct (Near (snd a)) as [k ->]. cbn [bind]. destruct (signature_fits _ _); [discriminate|]. intros H. injection H as <-. auto. Qed.
Lemma key_err : forall l e, key_messages p l = Err e -> e = IndexError.
Proof.
  intros l e. apply mapM_only. intros a e' _. destruct (Near (snd a)) as [k ->]. cbn [bind]. unfold py_nth. cbv zeta.
  destruct (_ <? 0); cbn [bind]; [intros H; injection H as <-; auto|]. destruct (nth_error _ _); cbn [bind]; [discriminate|]. intros H. injection H as <-. auto.
Qed.
Lemma lyric_ok : forall l, exists m, lyric_messages p l = Ok m.
Proof. intros l. apply mapM_exists. intros a _. destruct (Near (snd a)) as [k ->]. cbn. eauto. Qed.
Lemma timing_err : forall e, timing_track sg = Err e -> e = ValueError \/
  (e = IndexError /\ exists x, In x (md_keys (sg_meta sg)) /\ ~ (-24 <= fst x < 24)).
Proof.
  intros e H. unfold timing_track in H. cbv zeta in H. fold p in H. destruct (tempo_messages p) as [tempi|] eqn:E1; cbn [bind] in H; [|injection H as <-; left; apply tempo_err; auto].
  destruct (signature_messages p _) as [sigs|] eqn:E2; cbn [bind] in H; [|injection H as <-; left; eapply sig_err; eauto].
  destruct (key_messages p _) as [keys|] eqn:E3; cbn [bind] in H.
  2: { right. injection H as <-. split; [eapply key_err; eauto|]. destruct (Exists_dec (fun x : Z * Q => ~ (-24 <= fst x < 24)) (md_keys (sg_meta sg))) as [X|X].
       - intros x. destruct (Z_le_dec (-24) (fst x)), (Z_lt_dec (fst x) 24); [right|left|left|left]; lia.
       - apply Exists_exists in X. auto.
       - exfalso. assert (K : exists m, key_messages p (md_keys (sg_meta sg)) = Ok m).
         { apply mapM_exists. intros a I. destruct (Near (snd a)) as [k ->]. cbn [bind]. destruct (proj2 (key_in (fst a))) as [s ->]; [|cbn; eauto].
           destruct (Z_le_dec (-24) (fst a)) as [A|A], (Z_lt_dec (fst a) 24) as [B|B]; try lia; exfalso; apply X; apply Exists_exists; exists a; split; auto; lia. }
         destruct K as [m K]. congruence. }
  destruct (lyric_ok (md_lyrics (sg_meta sg))) as [ly E4]. rewrite E4 in H. cbn [bind] in H. destruct (rev _) as [|e0 re] eqn:R; [|discriminate].
  exfalso. apply (f_equal (@rev _)) in R. rewrite rev_involutive in R. cbn [rev] in R.
  match type of R with py_sort ?lt ?l = [] => pose proof (py_sort_perm lt l) as PP end. rewrite R in PP. apply Permutation_sym, Permutation_nil in PP.
  apply app_eq_nil in PP as [_ PP]. apply app_eq_nil in PP as [PP _]. subst tempi. apply mapM_inv in E1. inversion E1 as [EQ|].
  unfold write_tempo in EQ. symmetry in EQ. apply map_eq_nil in EQ. auto.
Qed.
Lemma refused : forall file e, serialize dc sg file = Err e -> e = ValueError \/
  (e = IndexError /\ exists x, In x (md_keys (sg_meta sg)) /\ ~ (-24 <= fst x < 24)).
Proof.
  intros file e H. unfold serialize in H. destruct (timing_track sg) as [t0|x] eqn:TT; cbn [bind] in H; [|injection H as <-; apply timing_err; auto].
  destruct (_ && _); [|injection H as <-; auto]. destruct (mapM_exists _ _ (to_ticks p) (sg_insts sg)) as [ws E]; [intros; apply (to_ticks_total sg Near)|].
  fold p in H. rewrite E in H. cbn [bind] in H. destruct (forallb _ _); [discriminate|]. injection H as <-. auto.
Qed.
Lemma refused_key : forall file, (forall e, In e (write_tempo (p_res p) (p_scales p)) -> 0 <= snd e < 2 ^ 24) ->
  (forall x, In x (md_times (sg_meta sg)) -> 0 <= fst (fst x) <= 255 /\ exists e, 0 <= e <= 255 /\ snd (fst x) = 2 ^ e) ->
  (exists x, In x (md_keys (sg_meta sg)) /\ ~ (-24 <= fst x < 24)) -> serialize dc sg file = Err IndexError.
Proof.
  intros file TF SF [x [X1 X2]]. change (2 ^ 24) with 16777216 in TF. unfold serialize, timing_track. cbv zeta. fold p. unfold tempo_messages, signature_messages.
  destruct (mapM_exists _ _ (fun e => if tempo_fits (snd e) then Ok (fst e, MTempo (snd e)) else Err ValueError) (write_tempo (p_res p) (p_scales p))) as [tempi E1].
  { intros e K. specialize (TF e K). unfold tempo_fits. destruct ((0 <=? snd e) && (snd e <=? 16777215)) eqn:C; [eauto|lia]. }
  rewrite E1. cbn [bind].
  match goal with |- context [mapM ?g (md_times (sg_meta sg))] => destruct (mapM_exists _ _ g (md_times (sg_meta sg))) as [sigs ->] end.
  { intros e K. destruct (Near (snd e)) as [k ->]. cbn [bind]. destruct (SF e K) as [A B]. apply pow2_fits in B.
    assert (SFT : signature_fits (fst (fst e)) (snd (fst e)) = true).
    { unfold signature_fits. rewrite !andb_true_iff in *. destruct B as [[B1 B2] B3]. destruct A as [A1 A2]. apply Z.leb_le in A1, A2. tauto. }
    rewrite SFT. eauto. }
  cbn [bind]. destruct (key_messages p (md_keys (sg_meta sg))) as [ks|e] eqn:K; cbn [bind].
  - exfalso. apply mapM_inv in K. destruct (F2_in_l _ _ _ _ _ _ K X1) as [b [_ B]]. destruct (Near (snd x)) as [k KN]. rewrite KN in B. cbn [bind] in B.
    destruct (py_nth key_names (fst x)) as [s|] eqn:PN; [|discriminate]. apply X2. apply key_in. eauto.
  - rewrite (key_err _ _ K). reflexivity.
Qed.
End REFUSE.
