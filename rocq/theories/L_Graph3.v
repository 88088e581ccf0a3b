From Coq Require Import Sorted Permutation Relations QArith Lia.
From Verif Require Import PyBase L_Base L_Sort M_Note L_Note M_Events M_Seq S_Seq L_Seq M_Chord M_Graph S_Graph L_Chord L_Chord2 L_Chord3 L_Graph L_Graph2.
Open Scope Z_scope.

(** Numbering. *)
Lemma register_fields : forall b h ch, b_pyg (register b h ch) = b_pyg b /\ b_sub (register b h ch) = b_sub b.
Proof. intros. unfold register. cbv zeta. destruct (dict_get Z.eqb h (b_h2i b)); split; reflexivity. Qed.
Lemma numbered_in : forall b hs h, numbered b hs -> (In h hs <-> exists i, dict_get Z.eqb h (b_h2i b) = Some i).
Proof.
  intros b hs h [N [K [A B]]]. split.
  - intros H. apply In_nth_error in H as [n H]. exists (Z.of_nat n + 1). apply A. split; [lia|]. replace (Z.to_nat (Z.of_nat n + 1 - 1)) with n by lia. exact H.
  - intros [i H]. apply A in H as [_ H]. eapply nth_error_In; eauto.
Qed.
Lemma register_numbered : forall b hs h ch, numbered b hs -> numbered (register b h ch) (if in_dec Z.eq_dec h hs then hs else hs ++ [h]).
Proof.
  intros b hs h ch NB. pose proof NB as [N [K [A B]]].
  assert (KN : forall m : list (Z * list Z), map fst m = hs -> dict_get Z.eqb h m = None <-> ~ In h hs) by (intros m <-; apply (dict_get_None Z.eqb Z.eqb_spec)).
  unfold register. cbv zeta. destruct (in_dec Z.eq_dec h hs) as [I|I].
  - destruct (proj1 (numbered_in b hs h NB) I) as [i E]. rewrite E. split; [exact N|]. cbn. split; [|split; assumption].
    rewrite (dict_set_keys Z.eqb Z.eqb_spec). destruct (dict_get Z.eqb h (b_h2n b)) eqn:D; auto. exfalso. apply (KN (b_h2n b) K) in D. contradiction.
  - destruct (dict_get Z.eqb h (b_h2i b)) as [i|] eqn:E; [exfalso; apply I; apply (numbered_in b hs h NB); eauto|].
    assert (D : dict_get Z.eqb h (b_h2n b) = None) by (apply (KN _ K); auto).
    assert (KS : map fst (dict_set Z.eqb h ch (b_h2n b)) = hs ++ [h]) by (rewrite (dict_set_keys Z.eqb Z.eqb_spec), D, K; reflexivity).
    assert (LEN : Z.of_nat (List.length (dict_set Z.eqb h ch (b_h2n b))) = Z.of_nat (List.length hs) + 1).
    { rewrite <- (map_length fst), KS, app_length. cbn. lia. }
    rewrite LEN. set (k := Z.of_nat (List.length hs) + 1) in *.
    assert (LAST : forall i x, 1 <= i -> (nth_error (hs ++ [h]) (Z.to_nat (i - 1)) = Some x <-> nth_error hs (Z.to_nat (i - 1)) = Some x \/ (i = k /\ x = h))).
    { intros i x P. destruct (Z.lt_trichotomy i k) as [L|[->|L]].
      - rewrite nth_error_app1 by lia. split; [auto|]. intros [H|[H _]]; [auto|lia].
      - unfold k. replace (Z.to_nat (Z.of_nat (List.length hs) + 1 - 1)) with (List.length hs) by lia. rewrite nth_error_app2 by lia. rewrite Nat.sub_diag. cbn.
        split; [intros [= ->]; auto|]. intros [H|[_ ->]]; [|auto]. exfalso. assert (nth_error hs (List.length hs) <> None) by congruence. apply nth_error_Some in H0. lia.
      - split; [intros H|intros [H|[H _]]; [|lia]]; exfalso.
        + assert (H' : nth_error (hs ++ [h]) (Z.to_nat (i - 1)) <> None) by congruence. apply nth_error_Some in H'. rewrite app_length in H'. cbn in H'. lia.
        + assert (H' : nth_error hs (Z.to_nat (i - 1)) <> None) by congruence. apply nth_error_Some in H'. lia. }
    split; [|split; [exact KS|split]]; cbn.
    + apply (Permutation_NoDup (l := h :: hs)); [apply Permutation_cons_append|constructor; auto].
    + intros x i. rewrite (dict_get_set Z.eqb Z.eqb_spec). destruct (Z.eqb_spec h x) as [->|NE].
      * split; [intros [= <-]; split; [lia|]; apply LAST; [lia|auto]|]. intros [P H]. apply LAST in H; auto. destruct H as [H|[-> _]]; auto.
        exfalso. apply I. eapply nth_error_In; eauto.
      * rewrite A. split; intros [P H]; (split; [auto|]); [apply LAST; auto|]. apply LAST in H as [H|[_ H]]; auto. congruence.
    + intros x i. rewrite (dict_get_set Z.eqb Z.eqb_spec). destruct (Z.eqb_spec k i) as [<-|NE].
      * split; [intros [= <-]; split; [lia|]; apply LAST; [lia|auto]|]. intros [P H]. apply LAST in H; auto. destruct H as [H|[_ ->]]; auto.
        exfalso. assert (H' : nth_error hs (Z.to_nat (k - 1)) <> None) by congruence. apply nth_error_Some in H'. lia.
      * rewrite B. split; intros [P H]; (split; [auto|]); [apply LAST; auto|]. apply LAST in H as [H|[H _]]; auto. congruence.
Qed.
(** [grows b b']: the numbering of b' continues that of b. *)
Definition grows (b b' : builder) : Prop := forall hs, numbered b hs -> exists more, numbered b' (hs ++ more).
Lemma grows_refl : forall b, grows b b.
Proof. intros b hs H. exists []. rewrite app_nil_r. auto. Qed.
Lemma grows_trans : forall a b c, grows a b -> grows b c -> grows a c.
Proof. intros a b c H1 H2 hs H. destruct (H1 hs H) as [m1 M1]. destruct (H2 _ M1) as [m2 M2]. exists (m1 ++ m2). rewrite app_assoc. auto. Qed.
Lemma grows_register : forall b h ch, grows b (register b h ch).
Proof.
  intros b h ch hs H. pose proof (register_numbered b hs h ch H) as R. destruct (in_dec Z.eq_dec h hs); [exists []; rewrite app_nil_r; auto|eauto].
Qed.
Lemma grows_same : forall b p s, grows b (mkB (b_n2h b) (b_h2n b) (b_h2i b) (b_i2h b) p s).
Proof. intros b p s hs [N [K [A B]]]. exists []. rewrite app_nil_r. split; [exact N|]. split; [exact K|]. split; assumption. Qed.
Lemma each_rel : forall A T (f : T -> A -> res unit * T) (R : T -> T -> Prop), (forall t, R t t) -> (forall a b c, R a b -> R b c -> R a c) ->
  (forall t a, R t (snd (f t a))) -> forall l t, R t (snd (each f t l)).
Proof.
  intros A T f R R1 R2 H l. induction l as [|a l IH]; intros t; cbn [each]; [apply R1|]. specialize (H t a). destruct (f t a) as [[u|e] t']; cbn in *; [|auto].
  eapply R2; eauto.
Qed.
Lemma visit_grows : forall e c notes st ch, grows (fst (fst st)) (fst (fst (snd (visit e c notes st ch)))) /\
  b_pyg (fst (fst (snd (visit e c notes st ch)))) = b_pyg (fst (fst st)) /\ b_sub (fst (fst (snd (visit e c notes st ch)))) = b_sub (fst (fst st)).
Proof.
  intros e c notes [[b g] lst] ch. unfold visit. destruct (if c_velocity c then _ else _) as [v|x]; cbn [fst snd]; [|split; [apply grows_refl|auto]].
  destruct (register_fields b (e_shash e ch) ch) as [R1 R2].
  destruct (create_tensor _ _ _ _ _); cbn [fst snd]; (split; [apply grows_register|auto]).
Qed.
Definition bgrows (t t' : builder * digraph * option Z) : Prop :=
  grows (fst (fst t)) (fst (fst t')) /\ b_pyg (fst (fst t')) = b_pyg (fst (fst t)) /\ b_sub (fst (fst t')) = b_sub (fst (fst t)).
Lemma sequence_grows : forall e b s c g, grows b (snd (build_sequence e b s c g)) /\
  b_pyg (snd (build_sequence e b s c g)) = b_pyg b /\ b_sub (snd (build_sequence e b s c g)) = b_sub b.
Proof.
  intros e b s c g. assert (T : grows b b /\ b_pyg b = b_pyg b /\ b_sub b = b_sub b) by (split; [apply grows_refl|auto]). unfold build_sequence.
  destruct (_ || _); [exact T|]. destruct (_ <=? 0); [exact T|]. destruct (_ || _); [exact T|].
  destruct (compute_data _ _ _ _ _ _) as [[[|d data] lg]|x]; [exact T| |exact T].
  destruct (match g with None => _ | Some _ => _ end) as [[g0 lst]|x]; [|exact T].
  assert (R : bgrows (b, g0, lst) (snd (each (visit_group e c) (b, g0, lst) (in_key_order (d :: data))))).
  { assert (R1 : forall t, bgrows t t) by (intros; split; [apply grows_refl|auto]).
    assert (R2 : forall x y z, bgrows x y -> bgrows y z -> bgrows x z).
    { intros x y z [A1 [A2 A3]] [B1 [B2 B3]]. split; [eapply grows_trans; eauto|]. split; congruence. }
    apply each_rel; auto. intros t a. unfold visit_group. apply each_rel; auto. intros t' a'. apply visit_grows. }
  destruct (each (visit_group e c) (b, g0, lst) (in_key_order (d :: data))) as [[u|x] [[b1 g1] l1]]; exact R.
Qed.
Lemma tracks_grow : forall e conv c per l b large, grows b (snd (build_tracks e conv c per b large l)).
Proof.
  intros e conv c per. induction l as [|s l IH]; intros b large; cbn [build_tracks]; [apply grows_refl|].
  destruct (i_drum _); [apply IH|]. destruct (Nat.eqb _ _); [apply IH|].
  pose proof (proj1 (sequence_grows e b s c (if per then None else large))) as SG.
  destruct (build_sequence e b s c (if per then None else large)) as [[g|x] b1]; cbn [snd] in SG; [|exact SG].
  destruct (g_nodes g); [eapply grows_trans; [exact SG|apply IH]|].
  destruct per; [|eapply grows_trans; [exact SG|apply IH]]. destruct (conv g); [exact SG|].
  eapply grows_trans; [exact SG|]. eapply grows_trans; [|apply IH]. apply grows_same.
Qed.
Lemma build_grows : forall e conv b l c per, grows b (snd (build e conv b l c per)).
Proof.
  intros. unfold build. pose proof (tracks_grow e conv c per l b None) as T.
  destruct (build_tracks e conv c per b None l) as [[[g|]|x] b1]; cbn [snd] in *; auto.
  destruct (conv g); cbn [snd]; exact T.
Qed.
Lemma next_grows : forall b skip sanity s, grows b (snd (fst (graphs_next b skip sanity s))).
Proof.
  intros b skip sanity s. destruct s; unfold graphs_next.
  - destruct (b_h2n b) eqn:E1; [apply grows_refl|]. destruct (sanity && _); [apply grows_refl|]. destruct (b_pyg b); [apply grows_refl|].
    destruct (lookup_all _ _); cbn; [|apply grows_refl]. destruct (sanity && _); apply grows_same.
  - apply grows_same.
  - apply grows_refl.
Qed.
Lemma do_grows : forall e b o, grows b (b_do e b o).
Proof. intros e b [conv l c per|s c g|skip sanity s]; cbn; [apply build_grows|apply sequence_grows|apply next_grows]. Qed.
Lemma run_grows : forall e ops b, grows b (b_run e b ops).
Proof. intros e. induction ops as [|o ops IH]; intros b; cbn; [apply grows_refl|]. eapply grows_trans; [apply do_grows|apply IH]. Qed.
Lemma new_numbered : numbered b_new [].
Proof.
  split; [constructor|]. split; [reflexivity|]. split; intros h i; (split; [discriminate|]); intros [_ H]; destruct (Z.to_nat (i - 1)); discriminate.
Qed.
Lemma run_numbered : forall e ops, exists hs, numbered (b_run e b_new ops) hs.
Proof. intros. destruct (run_grows e ops b_new [] new_numbered) as [m M]. eauto. Qed.
Lemma run_stable : forall e ops more h i, dict_get Z.eqb h (b_h2i (b_run e b_new ops)) = Some i ->
  dict_get Z.eqb h (b_h2i (b_run e b_new (ops ++ more))) = Some i.
Proof.
  intros e ops more h i H. destruct (run_numbered e ops) as [hs N]. unfold b_run in *. rewrite fold_left_app.
  destruct (run_grows e more _ hs N) as [m M]. unfold b_run in M. destruct N as [_ [_ [A _]]]. destruct M as [_ [_ [A' _]]]. apply A in H. destruct H as [P H]. apply A'. split; [exact P|]. rewrite nth_error_app1; [exact H|]. apply nth_error_Some. congruence.
Qed.
(** After a successful build every chord has an index and its notes are recorded. *)
Lemma reg_all_In : forall e l b hs, numbered b hs -> exists hs', numbered (reg_all e b l) hs' /\ incl hs hs' /\ (forall ch, In ch l -> In (e_shash e ch) hs').
Proof.
  intros e. induction l as [|ch l IH]; intros b hs N; cbn.
  - exists hs. split; auto. split; [apply incl_refl|]. intros ? [].
  - pose proof (register_numbered b hs (e_shash e ch) ch N) as R. destruct (IH _ _ R) as [hs' [A [B C]]]. exists hs'. split; [exact A|].
    assert (I : incl hs (if in_dec Z.eq_dec (e_shash e ch) hs then hs else hs ++ [e_shash e ch])) by (destruct (in_dec _ _ _); [apply incl_refl|apply incl_appl; apply incl_refl]).
    split; [intros y Hy; apply B; apply I; auto|]. intros c0 [<-|H]; [|auto]. apply B. destruct (in_dec Z.eq_dec (e_shash e ch) hs); auto. apply in_or_app. right. left. auto.
Qed.
Lemma reg_all_notes : forall e l b h ns, dict_get Z.eqb h (b_h2n (reg_all e b l)) = Some ns ->
  (exists ch, In ch l /\ e_shash e ch = h /\ ns = ch) \/ dict_get Z.eqb h (b_h2n b) = Some ns.
Proof.
  intros e. induction l as [|ch l IH]; intros b h ns H; cbn in H; auto.
  destruct (IH _ _ _ H) as [[c0 [A [B C]]]|E]; [left; exists c0; auto using in_cons|]. 
  assert (X : b_h2n (register b (e_shash e ch) ch) = dict_set Z.eqb (e_shash e ch) ch (b_h2n b)) by (unfold register; cbv zeta; destruct (dict_get _ _ (b_h2i b)); reflexivity).
  rewrite X, (dict_get_set Z.eqb Z.eqb_spec) in E. destruct (Z.eqb_spec (e_shash e ch) h) as [<-|NE]; auto.
  left. exists ch. split; [left; auto|]. split; congruence.
Qed.
