From Coq Require Import Sorted Permutation Lqa Lia Qround Qpower.
From Verif Require Import PyBase L_Base M_Note L_Note L_Note2 M_NoteExtra M_Events M_Beats S_Beats L_Beats L_Beats2 L_Beats3 L_Beats4 L_Beats5 M_Tempi S_Tempi L_Tempi S_BeatStart.
Open Scope Q_scope.

(** Steady performances. *)
Lemma fold_ioi_comp : forall n x y, x == y -> fold_ioi n x == fold_ioi n y.
Proof.
  induction n as [|n IH]; intros x y E; cbn [fold_ioi]; qcase (Qltb x (1 # 5)); qcase (Qltb y (1 # 5)); try lra.
  apply IH. rewrite E. reflexivity.
Qed.
Lemma steady_clusters : forall v l cl, (forall x, In x l -> x == v) -> (cl = [] \/ exists m c, cl = [(m, c)] /\ m == v /\ 0 < c) ->
  l <> [] \/ cl <> [] -> exists m c, fold_left add_interval l cl = [(m, c)] /\ m == v /\ 0 < c.
Proof.
  intros v. induction l as [|x l IH]; intros cl H HC N; cbn [fold_left].
  - destruct HC as [->|HC]; [destruct N; congruence|auto].
  - apply IH; [intros; apply H; right; auto| |].
    + right. pose proof (H x (or_introl eq_refl)) as X. destruct HC as [->|[m [c [-> [E C]]]]].
      * exists x, 1. split; [reflexivity|]. split; [auto|lra].
      * unfold add_interval. cbn [existsb fst].
        assert (K : Qltb (Qabsb (m - x)) (25 # 1000) = true).
        { apply Qltb_lt. destruct (Qabsb_spec (m - x)) as [[? ->]|[? ->]]; lra. }
        rewrite K. cbn [orb map argmin argmin_from update_at fst snd].
        exists ((c * m + x) / (c + 1)), (c + 1). split; [reflexivity|]. split; [|lra]. rewrite E, X. field. lra.
    + right. unfold add_interval. destruct (existsb _ cl) eqn:K.
      * intro Z. apply (f_equal (@List.length _)) in Z. rewrite update_length in Z. destruct cl; [discriminate|discriminate].
      * destruct cl; discriminate.
Qed.
Lemma steady : forall srt onsets g, argsorts srt -> rhythmic g -> gaps onsets <> [] -> (forall d, In d (gaps onsets) -> d == g) ->
  exists t p, estimate_tempi srt onsets = ([t], [p]) /\ p == 1 /\ folded g (60 / t).
Proof.
  intros srt onsets g HS HR HN HG. unfold estimate_tempi. cbv zeta. rewrite gaps_diff.
  destruct (steady_clusters (fold_ioi 3 g) (map (fold_ioi 3) (usable (gaps onsets))) []) as [m [c [E [M C]]]].
  - intros x Hx. apply in_map_iff in Hx. destruct Hx as [d [<- Hd]]. apply usable_in in Hd. apply fold_ioi_comp. apply HG. tauto.
  - auto.
  - left. destruct (gaps onsets) as [|d r] eqn:EG; [congruence|].
    assert (K : In d (usable (d :: r))).
    { apply usable_in. split; [left; auto|]. pose proof (HG d (or_introl eq_refl)) as D. destruct HR. split; lra. }
    destruct (usable (d :: r)); [destruct K|discriminate].
  - rewrite E. cbn [map snd].
    destruct (HS [c]) as [P _]. cbn [List.length seq] in P. apply Permutation_sym, Permutation_length_1_inv in P. rewrite P.
    cbn [rev app map nth fst snd fold_left].
    exists (60 / m), (c / (0 + c)). split; [reflexivity|]. split; [field; lra|].
    destruct (fold3 g HR) as [k [A [B D]]]. pose proof (folded_range g _ HR (fold3 g HR)) as R.
    assert (Z : 60 / (60 / m) == m) by (field; lra).
    exists k. split; [rewrite Z, M; auto|]. split; [rewrite Z, M; auto|auto].
Qed.

(** Onsets. *)
Lemma perm_concat : forall (f : list Q -> list Q) l, (forall x, Permutation (f x) x) -> Permutation (List.concat (map f l)) (List.concat l).
Proof. intros f l H. induction l as [|x l IH]; cbn [map List.concat]; auto. apply Permutation_app; auto. Qed.
Lemma sort_q_perm : forall l, Permutation (sort_q l) l.
Proof. intro l. apply Permutation_sym. apply py_sort_perm. Qed.
Lemma sort_q_sorted : forall l, StronglySorted Qle (sort_q l).
Proof.
  intro l. assert (S : StronglySorted (fun a b => Qltb b a = false) (sort_q l)).
  { apply py_sort_sorted; intros; repeat match goal with H : Qltb _ _ = true |- _ => apply Qltb_lt in H | H : Qltb _ _ = false |- _ => apply Qltb_ge in H end; apply Qltb_ge; lra. }
  induction S; constructor; auto. eapply Forall_impl; [|eassumption]. intros b K. apply Qltb_ge in K. auto.
Qed.
Lemma onsets_spec : forall insts, Permutation (get_onsets insts) (List.concat insts) /\ StronglySorted Qle (get_onsets insts).
Proof.
  intro insts. unfold get_onsets. split; [|apply sort_q_sorted].
  rewrite sort_q_perm. apply perm_concat. apply sort_q_perm.
Qed.

(** estimate_tempo. *)
Lemma tempo_spec : forall srt onsets, argsorts srt ->
  (estimate_tempo srt onsets = Err ValueError <-> forall g, In g (gaps onsets) -> ~ rhythmic g) /\
  (forall e, estimate_tempo srt onsets = Err e -> e = ValueError) /\
  (forall t, estimate_tempo srt onsets = Ok t -> 30 < t <= 300 /\
     exists ts p ps, estimate_tempi srt onsets = (t :: ts, p :: ps) /\ forall p', In p' ps -> p' <= p).
Proof.
  intros srt onsets HS. unfold estimate_tempo. destruct (estimate_tempi srt onsets) as [t p] eqn:E.
  destruct (tempi_facts srt onsets HS t p E) as [A [B [C [D [F G]]]]]. cbn [fst]. rewrite <- G.
  destruct t as [|x t].
  - split; [tauto|]. split; [intros e K; injection K; auto|discriminate].
  - split; [split; discriminate|]. split; [discriminate|]. intros t' K. apply Ok_inj in K. subst t'.
    split; [apply B; left; auto|]. destruct p as [|p ps]; [discriminate|]. exists t, p, ps. split; auto.
    inversion D as [|? ? _ D2]; subst. intros p' Hp. eapply Forall_forall in D2; eauto.
Qed.

(** Candidate starts. *)
Lemma pick_fresh : forall notes cand total n prev, (0 <= n)%Z -> (Z.of_nat (List.length notes) + n <= total)%Z ->
  StronglySorted Qle (match prev with None => map bn_start notes | Some p => p :: map bn_start notes end) ->
  pick cand total n prev notes =
  firstn (Z.to_nat (cand + 1 - n))
    (match prev with None => fresh (map bn_start notes) | Some p => tl (fresh (p :: map bn_start notes)) end).
Proof.
  induction notes as [|a r IH]; intros cand tot n prev N0 NT S; cbn [pick map].
  - destruct prev; cbn [fresh combine filter map tl]; rewrite firstn_nil; reflexivity.
  - cbn [List.length] in NT.
    destruct (Z.leb_spec n cand) as [L|L].
    2:{ replace (Z.to_nat (cand + 1 - n)) with O by lia. reflexivity. }
    destruct (Z.leb_spec n tot) as [_|L2]; [|lia]. cbn [andb].
    assert (S' : StronglySorted Qle (bn_start a :: map bn_start r)) by (destruct prev; [inversion S; auto|exact S]).
    destruct (Z.to_nat (cand + 1 - n)) as [|k] eqn:EK; [lia|].
    assert (EK2 : k = Z.to_nat (cand + 1 - (n + 1))) by lia.
    assert (REC : forall n', (0 <= n')%Z -> (n' <= n + 1)%Z -> pick cand tot n' (Some (bn_start a)) r = firstn (Z.to_nat (cand + 1 - n')) (tl (fresh (bn_start a :: map bn_start r)))).
    { intros n' H1 H2. apply IH; auto. lia. }
    destruct prev as [p|].
    + apply StronglySorted_inv in S. destruct S as [_ F]. pose proof (Forall_inv F) as PA. cbn beta in PA.
      assert (AB : Qltb (1 # 1000) (Qabsb (p - bn_start a)) = Qltb (1 # 1000) (bn_start a - p)).
      { destruct (Qabsb_spec (p - bn_start a)) as [[? ->]|[? ->]]; qcase (Qltb (1 # 1000) (bn_start a - p)); try (apply Qltb_lt; lra); apply Qltb_ge; lra. }
      rewrite AB. cbn [fresh tl combine filter map fst snd].
      destruct (Qltb (1 # 1000) (bn_start a - p)).
      * cbn [map snd firstn]. rewrite REC by lia. rewrite <- EK2. reflexivity.
      * rewrite REC by lia. rewrite EK. reflexivity.
    + cbn [fresh firstn]. rewrite REC by lia. rewrite <- EK2. reflexivity.
Qed.
