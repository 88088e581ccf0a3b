From Coq Require Import Sorted Permutation Relations QArith Qabs Qround Lia Lqa.
From Verif Require Import PyBase L_Base L_Sort M_Note L_Note M_Events M_Seq S_Seq L_Seq M_Chord M_Graph S_Graph L_Chord L_Chord2 L_Chord3 L_Graph L_Graph2 L_Graph3 L_Graph4 L_Graph5 L_Graph6 L_Graph7 L_Graph8.
Open Scope Z_scope.

(** Features. *)
Lemma top_loudest : forall notes p, (exists n, In n notes /\ n_pitch n = p) -> loudest notes p (top_velocity notes p).
Proof.
  intros notes p [n [I P]]. unfold top_velocity. set (vs := map n_velocity (filter (fun n => n_pitch n =? p) notes)).
  assert (V : forall m, In m notes -> n_pitch m = p -> In (n_velocity m) vs) by (intros m M1 M2; apply in_map; apply filter_In; split; [auto|apply Z.eqb_eq; auto]).
  destruct (lmax_spec vs) as [A B]; [intros E; specialize (V n I P); rewrite E in V; destruct V|]. split.
  - apply in_map_iff in A as [m [E A]]. apply filter_In in A as [A1 A2]. apply Z.eqb_eq in A2. eauto.
  - intros m M1 M2. apply B. auto.
Qed.
Lemma padded_is_row : forall n l, 0 <= n -> (List.length l <= Z.to_nat n)%nat -> row n l (padded (Z.to_nat n) l).
Proof. intros n l N L. destruct (padded_row (Z.to_nat n) l L) as [A B]. split; [rewrite A; lia|exact B]. Qed.
Lemma rows_hot : forall k l, (forall p, In p l -> 0 <= p < k) -> Forall2 (hot k) l (map (one_hot_row k) l).
Proof.
  intros k l. induction l as [|p l IH]; intros H; cbn; constructor; [|apply IH; intros; apply H; right; auto]. assert (P : 0 <= p < k) by (apply H; left; auto).
  destruct (one_hot_row_spec k p P) as [A B]. split; [lia|]. intros i. rewrite B. destruct (Nat.eqb_spec i (Z.to_nat p)), (Z.eqb_spec (Z.of_nat i) p); auto; lia.
Qed.
Lemma one_hot_inv : forall k l rows, one_hot k l = Ok rows -> (forall p, In p l -> 0 <= p < k) /\ rows = map (one_hot_row k) l.
Proof.
  intros k l rows H. unfold one_hot in H. destruct (forallb _ l) eqn:E; [|discriminate]. apply Ok_inj in H. split; auto. intros p I. rewrite forallb_forall in E. specialize (E p I).
  apply andb_true_iff in E as [E1 E2]. apply Z.leb_le in E1. apply Z.ltb_lt in E2. lia.
Qed.
Lemma create_feature : forall e c notes chunk x, 0 < c_size c -> chunk <> [] -> Z.of_nat (List.length chunk) <= c_size c -> (forall p, In p chunk -> exists n, In n notes /\ n_pitch n = p) ->
  create_tensor (c_type c) chunk (velocities_of e c notes chunk) (c_size c) 127 = Ok x -> feature c notes chunk x.
Proof.
  intros e c notes chunk x SZ NE L P H. exists (map (top_velocity notes) chunk). split.
  { clear - P. induction chunk as [|p l IH]; cbn; constructor; [apply top_loudest; apply P; left; auto|apply IH; intros; apply P; right; auto]. }
  unfold velocities_of in H. unfold create_tensor in H. rewrite (firstn_all2 (n := Z.to_nat (c_size c))) in H by lia.
  destruct (rescale_total (map (top_velocity notes) chunk)) as [vs [W1 [W2 _]]]; [destruct chunk; [congruence|discriminate]|]. rewrite map_length in W2.
  destruct (c_type c), (c_velocity c).
  - rewrite W1 in H. destruct (Nat.ltb_spec (Z.to_nat (c_size c)) (List.length vs)); [discriminate|]. destruct (_ && _); [|discriminate]. apply Ok_inj in H. subst x.
    exists vs. do 2 eexists. split; [auto|]. split; [reflexivity|]. split; apply padded_is_row; lia.
  - apply Ok_inj in H. subst x. eexists. split; [reflexivity|]. apply padded_is_row; lia.
  - rewrite W1 in H. destruct (one_hot 127 chunk) as [rows|y] eqn:E; [|discriminate]. apply one_hot_inv in E as [E1 ->]. cbn [bind] in H. destruct (Nat.eqb _ _); [|discriminate]. apply Ok_inj in H. subst x.
    do 2 eexists. split; [exact W1|]. split; [apply rows_hot; exact E1|reflexivity].
  - destruct (one_hot 127 chunk) as [rows|y] eqn:E; [|discriminate]. apply one_hot_inv in E as [E1 ->]. cbn [bind] in H. apply Ok_inj in H. subst x. eexists. split; [reflexivity|]. apply rows_hot. exact E1.
Qed.
Lemma put_attrs_onto : forall P (Q : Z * nattr -> Prop) items g lst, Forall P items -> Forall (fun n => Q n \/ attr_ok P n) (g_nodes g) ->
  Forall (fun n => Q n \/ attr_ok P n) (g_nodes (fst (fold_left put_item items (g, lst)))).
Proof.
  intros P Q. induction items as [|[[h x] names] items IH]; intros g lst F A; cbn [fold_left]; auto. inversion F as [|? ? F1 F2]; subst.
  cbn [put_item fst snd]. apply IH; auto. assert (R : forall k, (k =? h) = true -> k = h) by (intros k; apply Z.eqb_eq).
  unfold place. destruct lst as [p|].
  - destruct (has_edge g h p); [unfold bump; destruct (edge_weight g h p); exact A|].
    destruct (has_edge g p h); [unfold bump; destruct (edge_weight g p h); exact A|].
    cbn [add_edge add_node g_nodes]. apply dict_set_Forall; auto. right. exists (h, x, names). cbn. auto.
  - cbn [add_edge add_node g_nodes]. apply dict_set_Forall; auto. right. exists (h, x, names). cbn. auto.
Qed.
Lemma groups_nonempty : forall key f notes gs g, groups_of key f notes gs -> In g gs -> g <> [].
Proof. intros key f notes gs g [ks [_ [F _]]] I. clear - F I. induction F as [|k x ks gs [_ [H _]] F IH]; [destruct I|]. destruct I as [<-|I]; auto. Qed.
Lemma build_attrs : forall e b s c g g' b', env_ok e -> build_sequence e b s c g = (Ok g', b') ->
  exists key gs, time_key e (compute_tolerance s 95) key /\ groups_of key (c_filter c) (q_notes s) gs /\
    Forall (fun n => node_from e c gs n \/ match g with Some g0 => In n (g_nodes g0) | None => False end) (g_nodes g').
Proof.
  intros e b s c g g' b' EO H. pose proof (build_valid _ _ _ _ _ _ _ H) as V. destruct (build_items e b s c g g' b' EO H) as [gs [items [G [A [B [R [Z1 Z2]]]]]]].
  exists (key_of e s), gs. split; [apply key_of_time|]. split; [exact G|].
  assert (BASE : Forall (fun n => (match g with Some g0 => In n (g_nodes g0) | None => False end) \/ attr_ok (item_ok e c gs) n) (g_nodes g')).
  { destruct gs as [|x gs].
    - rewrite Z1 by auto. destruct g as [g0|]; [|constructor]. apply Forall_forall. auto.
    - destruct Z2 as [g0 [lst [ST ->]]]; [discriminate|]. apply put_attrs_onto; auto. destruct g as [g1|].
      + destruct ST as [-> _]. apply Forall_forall. auto.
      + destruct ST as [-> _]. constructor. }
  eapply Forall_impl; [|exact BASE]. intros [h a] [X|X]; [right; exact X|left].
  destruct X as [[[h' x] names] [[notes [chunk [I1 [I2 [I3 [I4 I5]]]]]] [E1 E2]]]. unfold hash_of in *. cbn [fst snd] in *.
  pose proof (split_chord_splits e (c_size c) notes EO ltac:(lia) (groups_nonempty _ _ _ _ _ G I1)) as SP. pose proof SP as [_ [SI [SF _]]]. rewrite Forall_forall in SF. destruct (SF chunk I2) as [F1 F2].
  assert (PN : forall p, In p (frozenset e (map n_pitch notes)) <-> exists m, In m notes /\ n_pitch m = p).
  { intros p. destruct EO as [_ [EO _]]. unfold frozenset. split.
    - intros Hp. apply (Permutation_in _ (EO _ (distinct_NoDup (map n_pitch notes)))) in Hp. apply (proj1 (distinct_In _ _)) in Hp. apply in_map_iff in Hp as [m [M1 M2]]. eauto.
    - intros [m [M1 M2]]. apply (Permutation_in _ (Permutation_sym (EO _ (distinct_NoDup (map n_pitch notes))))). apply distinct_In. apply in_map_iff. eauto. }
  assert (FX : feature c notes chunk x) by (apply (create_feature e); auto; [lia|]; intros p Hp; apply SI; apply in_concat; eauto).
  exists notes, (split_chord e (c_size c) notes), chunk, x, (match a with NChord _ l _ => l | NMerged _ => LHash h end). cbn [fst snd].
  split; [exact I1|]. split; [exact SP|]. split; [exact I2|]. split; [congruence|]. split; [exact FX|]. destruct E2 as [->| ->]; (split; [reflexivity|]); [left; auto|right].
  exists (frozenset e (map n_pitch notes)). split; [congruence|]. split; [|exact PN]. destruct EO as [_ [EO _]]. eapply Permutation_NoDup; [symmetry; apply EO; apply distinct_NoDup|apply distinct_NoDup].
Qed.

(** Notes whose starts snap to the same time are close. *)
Lemma same_chord_close : forall tol s1 s2 a1 a2, (0 <= tol)%Q -> snapped tol s1 a1 -> snapped tol s2 a2 -> (a1 == a2)%Q -> (Qabs (s1 - s2) <= tol + (1 # 100))%Q.
Proof.
  intros tol s1 s2 a1 a2 T H1 H2 E. apply snapped_close in H1; auto. apply snapped_close in H2; auto. apply Qabs_Qle_condition in H1, H2. apply Qabs_Qle_condition. lra.
Qed.

(** Merging. *)
Lemma dict_get_filter : forall (es : list ((Z * Z) * Z)) f k, dict_get edge_eqb k (filter (fun e => f (fst e)) es) = if f k then dict_get edge_eqb k es else None.
Proof.
  intros es f k. induction es as [|[k' v] es IH]; cbn; [destruct (f k); auto|]. destruct (f k') eqn:E; cbn.
  - destruct (edge_eqb_spec k' k) as [->|N]; [rewrite E; auto|auto].
  - rewrite IH. destruct (edge_eqb_spec k' k) as [->|N]; [rewrite E; auto|auto].
Qed.
Definition last_to (b : Z) (E : list ((Z * Z) * Z)) (acc : option Z) : option Z := fold_left (fun acc e => if snd (fst e) =? b then Some (snd e) else acc) E acc.
Lemma add_out : forall new all E g, let g' := fold_left (fun g e => if existsb (Z.eqb (snd (fst e))) all then g else add_edge g new (snd (fst e)) (snd e)) E g in
  g_nodes g' = g_nodes g /\ (forall a b, a <> new -> edge_weight g' a b = edge_weight g a b) /\
  (forall n, n <> new -> filter (fun e => fst (fst e) =? n) (g_edges g') = filter (fun e => fst (fst e) =? n) (g_edges g)) /\
  (forall b, edge_weight g' new b = if existsb (Z.eqb b) all then edge_weight g new b else last_to b E (edge_weight g new b)).
Proof.
  intros new all E. induction E as [|[[s b0] w] E IH]; intros g; cbn [fold_left fst snd last_to].
  - repeat split; auto. intros b. destruct (existsb _ all); auto.
  - set (g1 := if existsb (Z.eqb b0) all then g else add_edge g new b0 w). destruct (IH g1) as [A [B [C D]]]. cbv zeta in *.
    assert (G1 : g_nodes g1 = g_nodes g /\ (forall a b, a <> new -> edge_weight g1 a b = edge_weight g a b) /\
      (forall n, n <> new -> filter (fun e => fst (fst e) =? n) (g_edges g1) = filter (fun e => fst (fst e) =? n) (g_edges g)) /\
      (forall b, edge_weight g1 new b = if existsb (Z.eqb b) all then edge_weight g new b else if b0 =? b then Some w else edge_weight g new b)).
    { unfold g1. destruct (existsb (Z.eqb b0) all) eqn:X.
      - repeat split; auto. intros b. destruct (existsb (Z.eqb b) all) eqn:Y; auto. destruct (Z.eqb_spec b0 b); auto. congruence.
      - split; [reflexivity|]. split; [|split].
        + intros a b N. unfold edge_weight, add_edge. cbn [g_edges]. rewrite (dict_get_set edge_eqb edge_eqb_spec). destruct (edge_eqb_spec (new, b0) (a, b)); [congruence|auto].
        + intros n N. cbn [add_edge g_edges]. clear - N. induction (g_edges g) as [|[[s t] v] l IH]; cbn.
          * destruct (Z.eqb_spec new n); [congruence|auto].
          * destruct (edge_eqb_spec (s, t) (new, b0)) as [Q|Q]; cbn.
            -- injection Q as -> ->. destruct (Z.eqb_spec new n); [congruence|auto].
            -- destruct (s =? n); [f_equal|]; auto.
        + intros b. unfold edge_weight, add_edge. cbn [g_edges]. rewrite (dict_get_set edge_eqb edge_eqb_spec). destruct (edge_eqb_spec (new, b0) (new, b)) as [Q|Q].
          * injection Q as ->. rewrite X, Z.eqb_refl. reflexivity.
          * destruct (Z.eqb_spec b0 b); [congruence|]. destruct (existsb (Z.eqb b) all); reflexivity. }
    destruct G1 as [G1 [G2 [G3 G4]]]. split; [congruence|]. split; [intros; rewrite B, G2; auto|]. split; [intros; rewrite C, G3; auto|].
    intros b. rewrite D, G4. destruct (existsb (Z.eqb b) all) eqn:Y; auto.
Qed.
Lemma last_to_acc : forall b E acc, last_to b E acc = match last_to b E None with Some w => Some w | None => acc end.
Proof.
  intros b E. induction E as [|e E IH]; intros acc; [reflexivity|]. change (last_to b (e :: E) acc) with (last_to b E (if snd (fst e) =? b then Some (snd e) else acc)).
  change (last_to b (e :: E) None) with (last_to b E (if snd (fst e) =? b then Some (snd e) else None)). rewrite IH. rewrite (IH (if snd (fst e) =? b then Some (snd e) else None)). destruct (last_to b E None); auto. destruct (snd (fst e) =? b); auto.
Qed.
Lemma last_to_get : forall n es b, NoDup (map fst es) -> last_to b (filter (fun e => fst (fst e) =? n) es) None = dict_get edge_eqb (n, b) es.
Proof.
  intros n es b ND. assert (M : forall l, (forall w, ~ In ((n, b), w) l) -> last_to b (filter (fun e => fst (fst e) =? n) l) None = None).
  { induction l as [|[[s t] v] l IH]; intros H; cbn; auto. destruct (Z.eqb_spec s n) as [->|]; cbn; [|apply IH; intros w I; apply (H w); right; auto].
    destruct (Z.eqb_spec t b) as [->|]; [exfalso; apply (H v); left; auto|]. apply IH. intros w I; apply (H w); right; auto. }
  induction es as [|[[s t] v] es IH]; [reflexivity|]. cbn in ND. inversion ND as [|x y N1 N2]; subst. cbn [filter fst dict_get].
  destruct (edge_eqb_spec (s, t) (n, b)) as [Q|Q].
  - injection Q as -> ->. rewrite Z.eqb_refl. cbn [last_to fold_left fst snd]. rewrite Z.eqb_refl. change (fold_left _ _ (Some v)) with (last_to b (filter (fun e => fst (fst e) =? n) es) (Some v)). rewrite last_to_acc, M; auto.
    intros w I. apply N1. apply (in_map fst) in I. exact I.
  - destruct (Z.eqb_spec s n) as [->|]; cbn [last_to fold_left fst snd]; [|apply IH; auto]. destruct (Z.eqb_spec t b); [congruence|]. apply IH. auto.
Qed.
Lemma merge_edges_spec : forall new all g l, ~ In new all -> NoDup (map fst (g_edges g)) -> forall gi done,
  (forall n, In n l -> In n all /\ In n (nodes_of gi)) ->
  (forall n, n <> new -> filter (fun e => fst (fst e) =? n) (g_edges gi) = filter (fun e => fst (fst e) =? n) (g_edges g)) ->
  (forall a b, a <> new -> edge_weight gi a b = edge_weight g a b) ->
  (forall b, edge_weight gi new b = if existsb (Z.eqb b) all then None else fold_left (fun acc n => match edge_weight g n b with Some w => Some w | None => acc end) done None) ->
  exists g', merge_edges gi new all l = Ok g' /\ g_nodes g' = g_nodes gi /\ (forall a b, a <> new -> edge_weight g' a b = edge_weight g a b) /\
    (forall b, edge_weight g' new b = if existsb (Z.eqb b) all then None else fold_left (fun acc n => match edge_weight g n b with Some w => Some w | None => acc end) (done ++ l) None).
Proof.
  intros new all g l NA ND. induction l as [|n l IH]; intros gi done L FE EW NW; cbn [merge_edges].
  - exists gi. rewrite app_nil_r. auto.
  - destruct (L n (or_introl eq_refl)) as [L1 L2]. rewrite (proj2 (has_node_iff gi n) L2). assert (NN : n <> new) by (intros ->; contradiction).
    destruct (add_out new all (filter (fun e => fst (fst e) =? n) (g_edges gi)) gi) as [A [B [C D]]]. cbv zeta in *. set (g1 := fold_left _ _ gi) in *.
    destruct (IH g1 (done ++ [n])) as [g' [R1 [R2 [R3 R4]]]].
    + intros m Hm. destruct (L m (or_intror Hm)). split; auto. unfold nodes_of. rewrite A. auto.
    + intros m Hm. rewrite C, FE; auto.
    + intros a b Ha. rewrite B, EW; auto.
    + intros b. rewrite D, NW. destruct (existsb (Z.eqb b) all); auto. rewrite fold_left_app. cbn [fold_left]. rewrite last_to_acc, FE, last_to_get by auto. reflexivity.
    + exists g'. rewrite <- app_assoc in R4. cbn [app] in R4. split; [exact R1|]. split; [congruence|]. split; auto.
Qed.
Lemma remove_nodes_spec : forall l g, NoDup l -> (forall n, In n l -> In n (nodes_of g)) ->
  exists g', remove_nodes g l = Ok g' /\ g_nodes g' = filter (fun n => negb (existsb (Z.eqb (fst n)) l)) (g_nodes g) /\
    (forall a b, edge_weight g' a b = if existsb (Z.eqb a) l || existsb (Z.eqb b) l then None else edge_weight g a b).
Proof.
  induction l as [|n l IH]; intros g ND H; cbn [remove_nodes].
  - exists g. split; auto. split; [|auto]. clear. induction (g_nodes g) as [|x l IH]; [reflexivity|]; cbn in *; f_equal; exact IH.
  - inversion ND as [|x y N1 N2]; subst. unfold remove_node. rewrite (proj2 (has_node_iff g n)) by (apply H; left; auto). cbn [bind].
    set (g1 := mkG _ _). destruct (IH g1) as [g' [A [B C]]]; auto.
    { intros m Hm. unfold nodes_of, g1. cbn [g_nodes]. pose proof (H m (or_intror Hm)) as I. apply in_map_iff in I as [x [E I]]. apply in_map_iff. exists x. split; auto. apply filter_In. split; auto. rewrite E. destruct (Z.eqb_spec m n); [subst; contradiction|auto]. }
    exists g'. split; auto. split.
    + rewrite B. unfold g1. cbn [g_nodes]. clear. induction (g_nodes g) as [|x r IH]; [reflexivity|]. cbn [filter]. destruct (fst x =? n) eqn:E; cbn [negb existsb]; rewrite ?E; cbn [orb negb filter]; [auto|].
      destruct (existsb (Z.eqb (fst x)) l); cbn [negb]; [auto|f_equal; auto].
    + intros a b. rewrite C. unfold edge_weight, g1. cbn [g_edges]. cbn [existsb].
      rewrite (dict_get_filter (g_edges g) (fun k => negb ((fst k =? n) || (snd k =? n))) (a, b)). cbn [fst snd].
      destruct (a =? n), (b =? n), (existsb (Z.eqb a) l), (existsb (Z.eqb b) l); reflexivity.
Qed.
Lemma last_found : forall (f : Z -> option Z) l w, fold_left (fun acc n => match f n with Some w => Some w | None => acc end) l None = Some w <->
  exists l1 n l2, l = l1 ++ n :: l2 /\ f n = Some w /\ forall m, In m l2 -> f m = None.
Proof.
  intros f l w. induction l as [|x l IH] using rev_ind.
  - cbn. split; [discriminate|]. intros [l1 [n [l2 [E _]]]]. destruct l1; discriminate.
  - rewrite fold_left_app. cbn [fold_left]. destruct (f x) as [v|] eqn:F.
    + split.
      * intros [= <-]. exists l, x, []. split; auto. split; auto. intros m [].
      * intros [l1 [n [l2 [E [A B]]]]]. destruct l2 as [|y l2] using rev_ind; [apply app_inj_tail in E as [_ ->]; congruence|]. clear IHl2. rewrite app_comm_cons, app_assoc in E. apply app_inj_tail in E as [_ ->].
        rewrite (B y) in F by (apply in_or_app; right; left; auto). discriminate.
    + rewrite IH. split; intros [l1 [n [l2 [E [A B]]]]].
      * exists l1, n, (l2 ++ [x]). subst. rewrite <- app_assoc. split; auto. split; auto. intros m Hm. apply in_app_or in Hm as [Hm|[<-|[]]]; auto.
      * destruct l2 as [|y l2] using rev_ind; [apply app_inj_tail in E as [_ ->]; congruence|]. clear IHl2. rewrite app_comm_cons, app_assoc in E. apply app_inj_tail in E as [-> ->].
        exists l1, n, l2. split; auto. split; auto. intros m Hm. apply B. apply in_or_app. auto.
Qed.
Lemma existsb_In : forall a l, existsb (Z.eqb a) l = true <-> In a l.
Proof. intros. rewrite existsb_exists. split; [intros [x [I E]]; apply Z.eqb_eq in E; subst; auto|]. intros I. exists a. split; auto. apply Z.eqb_refl. Qed.
Lemma existsb_nIn : forall a l, existsb (Z.eqb a) l = false <-> ~ In a l.
Proof. intros. rewrite <- existsb_In. destruct (existsb (Z.eqb a) l); split; congruence. Qed.
Lemma filter_selects : forall (l : list (Z * nattr)) nodes, selects (fun h => ~ In h nodes) (map fst l) (map fst (filter (fun n => negb (existsb (Z.eqb (fst n)) nodes)) l)).
Proof.
  intros l nodes. induction l as [|x l IH]; cbn; [constructor|]. destruct (existsb (Z.eqb (fst x)) nodes) eqn:E; cbn; constructor; auto; [apply existsb_In in E; tauto|apply existsb_nIn; auto].
Qed.
Lemma merge_spec : forall g nodes, graph_ok g -> nodes_of g <> [] -> NoDup nodes -> (forall n, In n nodes -> In n (nodes_of g)) ->
  exists new g', merge_nodes g nodes = Ok (new, g') /\ ~ In new (nodes_of g) /\ (forall h, In h (nodes_of g) -> h < new) /\ merged g nodes new g'.
Proof.
  intros g nodes G NE ND IN. pose proof G as [G1 [G2 [G3 _]]]. unfold merge_nodes. destruct (g_nodes g) as [|x0 r0] eqn:GN; [exfalso; apply NE; apply nodes_nil; auto|]. rewrite <- GN.
  destruct (lmax_spec (nodes_of g) NE) as [M1 M2]. cbv zeta. set (new := lmax (map fst (g_nodes g)) + 1).
  assert (LT : forall h, In h (nodes_of g) -> h < new) by (intros h H; specialize (M2 h H); unfold new, nodes_of in *; lia).
  assert (FR : ~ In new (nodes_of g)) by (intros H; specialize (LT new H); lia).
  assert (FN : ~ In new nodes) by (intros H; apply FR; auto).
  set (g0 := add_node g new (NMerged nodes)).
  assert (N0 : g_nodes g0 = g_nodes g ++ [(new, NMerged nodes)]) by (unfold g0; cbn [add_node g_nodes]; apply (dict_set_new Z.eqb Z.eqb_spec); apply (dict_get_None Z.eqb Z.eqb_spec); exact FR).
  assert (NOEDGE : forall b, edge_weight g new b = None).
  { intros b. destruct (edge_weight g new b) eqn:E; auto. exfalso. apply (dict_get_In edge_eqb edge_eqb_spec) in E. apply FR. apply (G3 _ _ _ E). }
  destruct (merge_edges_spec new nodes g nodes FN G2 g0 []) as [g1 [A1 [A2 [A3 A4]]]].
  - intros n Hn. split; auto. unfold nodes_of. rewrite N0, map_app. apply in_or_app. left. apply IN. auto.
  - reflexivity.
  - reflexivity.
  - intros b. cbn [fold_left]. destruct (existsb _ nodes); apply NOEDGE.
  - rewrite A1. cbn [bind]. destruct (remove_nodes_spec nodes g1 ND) as [g2 [B1 [B2 B3]]].
    { intros n Hn. unfold nodes_of. rewrite A2, N0, map_app. apply in_or_app. left. apply IN. auto. }
    rewrite B1. cbn [bind]. exists new, g2. split; [reflexivity|]. split; [exact FR|]. split; [exact LT|].
    split; [|split].
    + exists (map fst (filter (fun n => negb (existsb (Z.eqb (fst n)) nodes)) (g_nodes g))). split; [apply filter_selects|].
      unfold nodes_of. rewrite B2, A2, N0, filter_app, map_app. f_equal. cbn. rewrite (proj2 (existsb_nIn new nodes) FN). reflexivity.
    + intros a b Ha. rewrite B3. destruct (existsb (Z.eqb a) nodes) eqn:EA; [right; split; auto; intros [_ [X _]]; apply X; apply existsb_In; auto|].
      destruct (existsb (Z.eqb b) nodes) eqn:EB; [right; split; auto; intros [_ [_ X]]; apply X; apply existsb_In; auto|]. cbn [orb]. rewrite A3 by auto. apply existsb_nIn in EA, EB.
      unfold weight. destruct (edge_weight g a b) eqn:E; [left; repeat split; auto; eexists; eauto|right; split; auto]. intros [[w W] _]. congruence.
    + intros b w. rewrite B3. rewrite (proj2 (existsb_nIn new nodes) FN). cbn [orb]. rewrite A4. cbn [app].
      destruct (existsb (Z.eqb b) nodes) eqn:EB; [split; [discriminate|]; intros [X _]; exfalso; apply X; apply existsb_In; auto|]. apply existsb_nIn in EB.
      rewrite last_found. split.
      * intros [l1 [n [l2 [X [Y Z]]]]]. split; auto. exists l1, n, l2. split; auto. split; auto. intros m Hm [v W]. rewrite (Z m Hm) in W. discriminate.
      * intros [_ [l1 [n [l2 [X [Y Z]]]]]]. exists l1, n, l2. split; auto. split; auto. intros m Hm. destruct (edge_weight g m b) eqn:W; auto. exfalso. apply (Z m Hm). eexists; eauto.
Qed.
Lemma merge_missing : forall g nodes n, graph_ok g -> nodes_of g <> [] -> In n nodes -> ~ In n (nodes_of g) -> n <> lmax (nodes_of g) + 1 -> merge_nodes g nodes = Err KeyError.
Proof.
  intros g nodes n G NE I N NN. unfold merge_nodes. destruct (g_nodes g) as [|x0 r0] eqn:GN; [exfalso; apply NE; apply nodes_nil; auto|]. rewrite <- GN. cbv zeta. fold (nodes_of g). set (new := lmax (nodes_of g) + 1) in *.
  assert (N' : ~ In n (nodes_of (add_node g new (NMerged nodes)))).
  { unfold nodes_of, add_node. cbn [g_nodes]. rewrite (dict_set_keys Z.eqb Z.eqb_spec). destruct (dict_get Z.eqb new (g_nodes g)); [exact N|]. intros X. apply in_app_or in X as [X|[X|[]]]; [contradiction|congruence]. }
  assert (F : forall l gi, In n l -> ~ In n (nodes_of gi) -> merge_edges gi new nodes l = Err KeyError).
  { clear - n. induction l as [|m l IH]; intros gi I N; [destruct I|]. cbn [merge_edges]. destruct (has_node gi m) eqn:H; [|reflexivity]. apply has_node_iff in H. destruct I as [->|I]; [contradiction|].
    apply IH; auto. unfold nodes_of. rewrite (proj1 (add_out new nodes (filter (fun e => fst (fst e) =? m) (g_edges gi)) gi)). exact N. }
  rewrite (F nodes _ I N'). reflexivity.
Qed.
