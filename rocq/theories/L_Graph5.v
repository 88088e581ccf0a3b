From Coq Require Import Sorted Permutation Relations QArith Qabs Lia Lqa.
From Verif Require Import PyBase L_Base L_Sort M_Note L_Note M_Events M_Seq S_Seq L_Seq M_Chord M_Graph S_Graph L_Chord L_Chord2 L_Chord3 L_Graph L_Graph2 L_Graph3 L_Graph4.
Open Scope Z_scope.

(** The specification determines the groups. *)
Lemma nearest_unique : forall x y m k, (x == y)%Q -> nearest_even x m -> nearest_even y k -> m = k.
Proof.
  intros x y m k E [A1 A2] [B1 B2]. apply Qabs_Qle_condition in A1 as A1'. apply Qabs_Qle_condition in B1 as B1'.
  destruct (Z.lt_trichotomy m k) as [L|[EQ|L]]; auto; exfalso.
  - assert (L' : m + 1 <= k) by lia. rewrite Zle_Qle, inject_Z_plus in L'. change (inject_Z 1) with 1%Q in L'.
    assert (X : (x - inject_Z m == 1 # 2)%Q) by lra. assert (Y : (y - inject_Z k == - (1 # 2))%Q) by lra.
    assert (EX : Z.Even m) by (apply A2; rewrite X; reflexivity). assert (EY : Z.Even k) by (apply B2; rewrite Y; reflexivity).
    assert (K : k = m + 1). { assert (inject_Z k == inject_Z (m + 1))%Q by (rewrite inject_Z_plus; change (inject_Z 1) with 1%Q; lra). unfold Qeq in H. cbn in H. lia. }
    destruct EX as [u EX], EY as [v EY]. lia.
  - assert (L' : k + 1 <= m) by lia. rewrite Zle_Qle, inject_Z_plus in L'. change (inject_Z 1) with 1%Q in L'.
    assert (X : (x - inject_Z m == - (1 # 2))%Q) by lra. assert (Y : (y - inject_Z k == 1 # 2)%Q) by lra.
    assert (EX : Z.Even m) by (apply A2; rewrite X; reflexivity). assert (EY : Z.Even k) by (apply B2; rewrite Y; reflexivity).
    assert (K : m = k + 1). { assert (inject_Z m == inject_Z (k + 1))%Q by (rewrite inject_Z_plus; change (inject_Z 1) with 1%Q; lra). unfold Qeq in H. cbn in H. lia. }
    destruct EX as [u EX], EY as [v EY]. lia.
Qed.
Lemma snapped_unique : forall tol s a b, snapped tol s a -> snapped tol s b -> (a == b)%Q.
Proof.
  intros tol s a b [[Z1 ->]|[N1 [m [k [A1 [A2 A3]]]]]] [[Z2 ->]|[N2 [m' [k' [B1 [B2 B3]]]]]]; try contradiction; try reflexivity.
  assert (m = m') by exact (nearest_unique _ _ m m' (Qeq_refl _) A1 B1). subst m'. assert (k = k') by exact (nearest_unique _ _ k k' (Qeq_refl _) A2 B2). subst k'. rewrite A3, B3. reflexivity.
Qed.
Lemma key_unique : forall e tol k1 k2, env_ok e -> time_key e tol k1 -> time_key e tol k2 -> forall n, k1 n = k2 n.
Proof.
  intros e tol k1 k2 [EO _] T1 T2 n. destruct (T1 n) as [a [A ->]]. destruct (T2 n) as [b [B ->]]. apply EO. eapply snapped_unique; eauto.
Qed.
Lemma selects_ext : forall A (p q : A -> Prop) l k, (forall x, p x <-> q x) -> selects p l k -> selects q l k.
Proof. intros A p q l k H S. induction S; constructor; auto; rewrite <- H; auto. Qed.
Lemma members_In : forall key k notes n, In n (members key k notes) <-> In n notes /\ sounding n /\ key n = k.
Proof. intros. unfold members. rewrite filter_In, members_iff. tauto. Qed.
Lemma groups_keys : forall key f notes gs ks, StronglySorted Z.lt ks ->
  Forall2 (fun k g => selects (fun n => sounding n /\ key n = k) notes g /\ g <> [] /\ (f = true -> (2 <= List.length g)%nat)) ks gs ->
  (forall n, In n notes -> sounding n -> f = false -> In (key n) ks) ->
  (forall k g, selects (fun n => sounding n /\ key n = k) notes g -> (2 <= List.length g)%nat -> In k ks) ->
  gs = map (fun k => members key k notes) ks /\ (forall k, In k ks <-> if f then (2 <= List.length (members key k notes))%nat else members key k notes <> []).
Proof.
  intros key f notes gs ks S F A B. split.
  - clear - F. induction F as [|k g ks gs [H _] F IH]; [reflexivity|]. cbn. f_equal; auto. apply selects_members. auto.
  - intros k. split.
    + intros I. assert (H : exists g, g = members key k notes /\ g <> [] /\ (f = true -> (2 <= List.length g)%nat)).
      { clear - F I. induction F as [|k' g ks gs [H1 H2] F IH]; [destruct I|]. destruct I as [->|I]; auto. exists g. split; auto. apply selects_members. auto. }
      destruct H as [g [-> [H1 H2]]]. destruct f; auto.
    + intros H. destruct f.
      * eapply B; [apply members_selects|auto].
      * destruct (members key k notes) as [|n r] eqn:E; [congruence|]. assert (I : In n (members key k notes)) by (rewrite E; left; auto). apply members_In in I as [I1 [I2 <-]]. auto.
Qed.
Lemma groups_unique : forall k1 k2 f notes g1 g2, (forall n, k1 n = k2 n) -> groups_of k1 f notes g1 -> groups_of k2 f notes g2 -> g1 = g2.
Proof.
  intros k1 k2 f notes g1 g2 E [ks1 [S1 [F1 [A1 B1]]]] [ks2 [S2 [F2 [A2 B2]]]].
  assert (M : forall k, members k1 k notes = members k2 k notes) by (intros k; unfold members; apply filter_ext; intros n; rewrite E; reflexivity).
  destruct (groups_keys k1 f notes g1 ks1 S1 F1 A1 B1) as [-> I1]. destruct (groups_keys k2 f notes g2 ks2 S2 F2 A2 B2) as [-> I2].
  assert (K : ks1 = ks2).
  { assert (SAME : forall k, In k ks1 <-> In k ks2) by (intros k; rewrite I1, I2, M; tauto). clear - S1 S2 SAME. revert ks2 S2 SAME. induction S1 as [|a l S1 IH F]; intros m S2 SAME.
    - destruct m as [|b m]; auto. exfalso. apply (SAME b). left; auto.
    - destruct S2 as [|b m S2 F2]; [exfalso; apply (SAME a); left; auto|]. rewrite Forall_forall in F, F2.
      assert (a = b). { destruct (proj1 (SAME a) (or_introl eq_refl)) as [H|H]; auto. destruct (proj2 (SAME b) (or_introl eq_refl)) as [H'|H']; auto. specialize (F _ H'). specialize (F2 _ H). lia. }
      subst b. f_equal. apply IH; auto. intros k. split; intros H.
      + destruct (proj1 (SAME k) (or_intror H)) as [<-|]; auto. specialize (F _ H). lia.
      + destruct (proj2 (SAME k) (or_intror H)) as [<-|]; auto. specialize (F2 _ H). lia. }
  subst ks2. apply map_ext. auto.
Qed.
Lemma splits_nonempty : forall size g cs, g <> [] -> splits size g cs -> List.concat cs <> [].
Proof.
  intros size g cs NE [_ [I _]]. destruct g as [|n g]; [congruence|]. intros E. assert (H : In (n_pitch n) (List.concat cs)) by (apply I; exists n; split; [left|]; auto). rewrite E in H. destruct H.
Qed.
Lemma chords_empty : forall e s c ws ws', env_ok e -> chords_of e s c ws -> chords_of e s c ws' -> ws = [] -> ws' = [].
Proof.
  intros e s c ws ws' EO [key [gs [css [T [G [F ->]]]]]] [key' [gs' [css' [T' [G' [F' ->]]]]]] E.
  assert (gs = gs') by (eapply groups_unique; [apply (key_unique e _ key key' EO T T')|exact G|exact G']). subst gs'.
  destruct gs as [|g gs]; [inversion F'; reflexivity|]. exfalso. inversion F as [|g0 cs gs0 css0 SP F0]; subst.
  assert (NE : g <> []). { destruct G as [ks [_ [FF _]]]. inversion FF as [|? ? ? ? [_ [H _]] _]; subst. exact H. }
  apply (splits_nonempty _ _ _ NE SP). cbn in E. apply app_eq_nil in E as [-> _]. reflexivity.
Qed.

(** Building every track. *)
Lemma first_seen_nil : forall l, first_seen l = [] -> l = [].
Proof. intros l H. destruct l as [|a l]; auto. assert (I : In a (first_seen (a :: l))) by (apply first_seen_In; left; auto). rewrite H in I. destruct I. Qed.
Lemma nodes_nil : forall g, nodes_of g = [] <-> g_nodes g = [].
Proof. intros g. unfold nodes_of. split; intros H; [apply map_eq_nil in H; auto|rewrite H; reflexivity]. Qed.
Lemma nodes_last : forall g, g_nodes g <> [] -> exists ns p, nodes_of g = ns ++ [p].
Proof.
  intros g H. assert (NN : nodes_of g <> []) by (intros E; apply H; apply nodes_nil; auto). destruct (exists_last NN) as [ns [p E]]. eauto.
Qed.
Lemma tracks_per : forall e conv c l b large lg b', env_ok e -> build_tracks e conv c true b large l = (Ok lg, b') ->
  lg = large /\ exists ts gs, selects (track_ok e c) l ts /\ Forall2 (graph_of_track e c) ts gs /\ Forall graph_ok gs /\
    b_pyg b' = b_pyg b ++ map (fun g => mkP g None None) gs /\ b_sub b' = b_sub b ++ gs.
Proof.
  intros e conv c l. induction l as [|s l IH]; intros b large lg b' EO H; cbn [build_tracks] in H.
  - injection H as H1 H2. subst. split; auto. exists [], []. rewrite !app_nil_r. repeat split; auto; constructor.
  - assert (SKIP : ~ track_ok e c s -> forall b1, b_pyg b1 = b_pyg b -> b_sub b1 = b_sub b -> build_tracks e conv c true b1 large l = (Ok lg, b') ->
      lg = large /\ exists ts gs, selects (track_ok e c) (s :: l) ts /\ Forall2 (graph_of_track e c) ts gs /\ Forall graph_ok gs /\
      b_pyg b' = b_pyg b ++ map (fun g => mkP g None None) gs /\ b_sub b' = b_sub b ++ gs).
    { intros N b1 P1 P2 HB. destruct (IH _ _ _ _ EO HB) as [A [ts [gs [B [C [D [E F]]]]]]]. split; auto. exists ts, gs. rewrite P1 in E. rewrite P2 in F. repeat split; auto. constructor; auto. }
    destruct (i_drum (q_instr s)) eqn:DR; [apply (SKIP ltac:(intros [X _]; congruence) b); auto|].
    destruct (Nat.eqb_spec (List.length (q_notes s)) 1) as [L1|L1]; [apply (SKIP ltac:(intros [_ [X _]]; congruence) b); auto|].
    pose proof (sequence_grows e b s c None) as [_ [SP SS]].
    destruct (build_sequence e b s c None) as [[g|x] b1] eqn:BS; [|discriminate]. cbn [snd] in SP, SS.
    destruct (build_fresh e b s c g b1 EO BS) as [ws [W1 [W2 [W3 W4]]]].
    destruct (g_nodes g) eqn:GN.
    + apply (SKIP) with (b1 := b1); auto. intros [_ [_ [ws' [NE W']]]]. apply NE. apply (chords_empty e s c _ ws' EO W1 W').
      destruct W2 as [W2 _]. apply nodes_nil in GN. rewrite W2 in GN. apply first_seen_nil in GN. apply map_eq_nil in GN. auto.
    + assert (NE : ws <> []). { intros ->. destruct W2 as [W2 _]. unfold nodes_of in W2. rewrite GN in W2. discriminate. }
      destruct (conv g); [discriminate|]. destruct (IH _ _ _ _ EO H) as [A [ts [gs [B [C [D [E F]]]]]]]. split; auto. exists (s :: ts), (g :: gs).
      unfold keep_graph in E, F. cbn [b_pyg b_sub] in E, F. rewrite SP in E. rewrite SS in F. rewrite <- app_assoc in E, F. repeat split; auto.
      * constructor; auto. repeat split; eauto.
      * constructor; auto. exists ws. auto.
Qed.
Definition so_far (e : env) (c : config) (ts : list seq) (large : option digraph) : Prop :=
  match large with None => ts = [] | Some g => graph_of_tracks e c ts g /\ graph_ok g /\ g_nodes g <> [] end.
Lemma tracks_one : forall e conv c l b large lg b' ts0, env_ok e -> build_tracks e conv c false b large l = (Ok lg, b') -> so_far e c ts0 large ->
  b_pyg b' = b_pyg b /\ b_sub b' = b_sub b /\ exists ts, selects (track_ok e c) l ts /\ so_far e c (ts0 ++ ts) lg.
Proof.
  intros e conv c l. induction l as [|s l IH]; intros b large lg b' ts0 EO H SF; cbn [build_tracks] in H.
  - injection H as H1 H2. subst. repeat split; auto. exists []. rewrite app_nil_r. split; [constructor|auto].
  - assert (SKIP : ~ track_ok e c s -> forall b1 large1, b_pyg b1 = b_pyg b -> b_sub b1 = b_sub b -> so_far e c ts0 large1 -> build_tracks e conv c false b1 large1 l = (Ok lg, b') ->
      b_pyg b' = b_pyg b /\ b_sub b' = b_sub b /\ exists ts, selects (track_ok e c) (s :: l) ts /\ so_far e c (ts0 ++ ts) lg).
    { intros N b1 large1 P1 P2 SF1 HB. destruct (IH _ _ _ _ _ EO HB SF1) as [A [B [ts [C D]]]]. rewrite P1 in A. rewrite P2 in B. repeat split; auto. exists ts. split; auto. constructor; auto. }
    destruct (i_drum (q_instr s)) eqn:DR; [apply (SKIP ltac:(intros [X _]; congruence) b large); auto|].
    destruct (Nat.eqb_spec (List.length (q_notes s)) 1) as [L1|L1]; [apply (SKIP ltac:(intros [_ [X _]]; congruence) b large); auto|].
    pose proof (sequence_grows e b s c large) as [_ [SP SS]].
    destruct (build_sequence e b s c large) as [[g|x] b1] eqn:BS; [|discriminate]. cbn [snd] in SP, SS.
    destruct large as [g0|].
    + destruct SF as [SF1 [SF2 SF3]]. destruct (nodes_last g0 SF3) as [ns [p NP]]. destruct (build_onto e b s c g0 ns p g b1 EO SF2 NP BS) as [ws [W1 [W2 [W3 W4]]]].
      assert (GN : g_nodes g <> []). { intros GN. apply nodes_nil in GN. destruct W2 as [W2 _]. rewrite GN in W2. symmetry in W2. apply first_seen_nil in W2. rewrite NP in W2. destruct ns; discriminate. }
      destruct (g_nodes g) eqn:GE; [congruence|]. destruct ws as [|w ws].
      * assert (G0 : g = g0).
        { clear - BS EO W1. destruct (build_items e b s c (Some g0) g b1 EO BS) as [gs [items [G [_ [_ [_ [Z1 _]]]]]]]. apply Z1. destruct gs as [|x gs]; auto. exfalso.
          pose proof (build_valid _ _ _ _ _ _ _ BS) as V. apply (chords_nonempty e s c (x :: gs) G EO ltac:(lia) ltac:(discriminate)).
          eapply chords_empty; [exact EO|exact W1|apply chords_split; auto; lia|reflexivity]. }
        subst g. apply (SKIP) with (b1 := b1) (large1 := Some g0); auto; [|split; auto].
        intros [_ [_ [ws' [NE W']]]]. apply NE. apply (chords_empty e s c _ ws' EO W1 W'). reflexivity.
      * destruct (IH _ _ _ _ (ts0 ++ [s]) EO H) as [A [B [ts [C D]]]].
        { split; [|split; [auto|congruence]]. eapply gt_more; eauto. discriminate. }
        rewrite SP in A. rewrite SS in B. repeat split; auto. exists (s :: ts). rewrite <- app_assoc in D. split; auto. constructor; auto. repeat split; auto. exists (w :: ws). split; [discriminate|auto].
    + cbn in SF. subst ts0. destruct (build_fresh e b s c g b1 EO BS) as [ws [W1 [W2 [W3 W4]]]].
      destruct (g_nodes g) eqn:GN.
      * apply (SKIP) with (b1 := b1) (large1 := None); auto; [|reflexivity]. intros [_ [_ [ws' [NE W']]]]. apply NE. apply (chords_empty e s c _ ws' EO W1 W').
        destruct W2 as [W2 _]. apply nodes_nil in GN. rewrite W2 in GN. apply first_seen_nil in GN. apply map_eq_nil in GN. auto.
      * assert (NE : ws <> []). { intros ->. destruct W2 as [W2 _]. unfold nodes_of in W2. rewrite GN in W2. discriminate. }
        destruct (IH _ _ _ _ [s] EO H) as [A [B [ts [C D]]]].
        { split; [|split; [auto|congruence]]. apply gt_one. exists ws. auto. }
        rewrite SP in A. rewrite SS in B. repeat split; auto. exists (s :: ts). split; auto. constructor; auto. repeat split; auto. exists ws. auto.
Qed.
Lemma build_per_instrument : forall e conv b l c b', env_ok e -> build e conv b l c true = (Ok tt, b') ->
  exists ts gs, selects (track_ok e c) l ts /\ Forall2 (graph_of_track e c) ts gs /\ Forall graph_ok gs /\
    b_pyg b' = b_pyg b ++ map (fun g => mkP g None None) gs /\ b_sub b' = b_sub b ++ gs.
Proof.
  intros e conv b l c b' EO H. unfold build in H. destruct (build_tracks e conv c true b None l) as [[lg|x] b1] eqn:B; [|discriminate].
  destruct (tracks_per e conv c l b None lg b1 EO B) as [-> R]. injection H as <-. exact R.
Qed.
Lemma build_whole : forall e conv b l c b', env_ok e -> build e conv b l c false = (Ok tt, b') ->
  exists ts, selects (track_ok e c) l ts /\
    ((ts = [] /\ b_pyg b' = b_pyg b /\ b_sub b' = b_sub b) \/
     (exists g, graph_of_tracks e c ts g /\ graph_ok g /\ b_pyg b' = b_pyg b ++ [mkP g None None] /\ b_sub b' = b_sub b ++ [g])).
Proof.
  intros e conv b l c b' EO H. unfold build in H. destruct (build_tracks e conv c false b None l) as [[lg|x] b1] eqn:B; [|discriminate].
  destruct (tracks_one e conv c l b None lg b1 [] EO B eq_refl) as [P1 [P2 [ts [T1 T2]]]]. exists ts. split; auto. cbn [app] in T2. destruct lg as [g|].
  - destruct (conv g); [discriminate|]. injection H as <-. right. exists g. destruct T2 as [T2 [T3 T4]]. split; [exact T2|]. split; [exact T3|]. unfold keep_graph. cbn. rewrite P1, P2. auto.
  - injection H as <-. left. auto.
Qed.
Definition good_track (c : config) (s : seq) : Prop := forall n, In n (q_notes s) -> sounding n -> (0 <= n_start n)%Q /\ good_pitch c (n_pitch n).
Lemma build_tracks_total : forall e conv c per l b large, env_ok e -> valid_config c -> (forall g, conv g = None) -> Forall (good_track c) l ->
  (match large with Some g => graph_ok g /\ g_nodes g <> [] | None => True end) -> exists lg b', build_tracks e conv c per b large l = (Ok lg, b').
Proof.
  intros e conv c per l. induction l as [|s l IH]; intros b large EO V CV F L; cbn [build_tracks]; [eauto|]. inversion F as [|s0 l0 F1 F2]; subst.
  destruct (i_drum (q_instr s)); [apply IH; auto|]. destruct (Nat.eqb _ _); [apply IH; auto|].
  destruct (build_total e b s c (if per then None else large) EO V F1) as [g [b1 B]]; [destruct per; auto; destruct large; auto; apply L|]. rewrite B.
  destruct (g_nodes g) eqn:GN; [apply IH; auto|]. destruct per; [rewrite CV; apply IH; auto|]. apply IH; auto. split; [|congruence].
  destruct large as [g0|].
  - destruct L as [L1 L2]. destruct (nodes_last g0 L2) as [ns [q NP]]. destruct (build_onto e b s c g0 ns q g b1 EO L1 NP B) as [ws [_ [_ [W _]]]]. exact W.
  - destruct (build_fresh e b s c g b1 EO B) as [ws [_ [_ [W _]]]]. exact W.
Qed.
Lemma build_all_total : forall e conv b l c per, env_ok e -> valid_config c -> (forall g, conv g = None) -> Forall (good_track c) l ->
  exists b', build e conv b l c per = (Ok tt, b').
Proof.
  intros e conv b l c per EO V CV F. unfold build. destruct (build_tracks_total e conv c per l b None EO V CV F I) as [lg [b' ->]]. destruct lg as [g|]; [rewrite CV|]; eauto.
Qed.
