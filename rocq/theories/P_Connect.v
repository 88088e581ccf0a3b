(** C214: connecting the graphs of different instruments. *)
From Coq Require Import QArith Lia Bool Lqa.
From Verif Require Import PyBase L_Base M_SortedDict M_Note M_Events M_Seq M_Chord M_Seqs M_Connect S_Connect L_Chord L_Connect L_Connect2.
Open Scope Z_scope.
Open Scope list_scope.

(** C214: a node without label or start time makes the call raise a KeyError before anything is changed.  The
    graphs made by this library's own builder have nodes without start times. *)
Theorem C214_missing : forall directed g s, (exists a x, In (a, x) g /\ (v_label x = None \/ v_start x = None)) ->
  connect_instruments directed g s = (Err KeyError, (g, s)).
Proof. intros directed g s H. unfold connect_instruments. rewrite (keys_err g H). reflexivity. Qed.
Print Assumptions C214_missing.

Lemma connect_links : forall directed g s, graph_ok directed g -> attributed g -> (forall u, is_node g u -> exists q, has_track s u q) ->
  exists r g' (V : Z -> Z -> Prop), connect_instruments directed g s = (r, (g', s)) /\
    links directed (fun a b => exists u v, V u v /\ joined_by g s u v a b) g g' /\ closed g g' /\
    (forall u v, V u v -> edge g' u v /\ exists l1 l2, map fst g = l1 ++ u :: l2 /\ (directed = false -> ~ In v l1)) /\
    (r = Ok tt /\ (forall l1 u l2 v, map fst g = l1 ++ u :: l2 -> edge g u v -> (directed = false -> ~ In v l1) -> V u v) \/
     r = Err RuntimeError /\ directed = true /\ exists u v b, V u v /\ joined_by g s u v u b /\ ~ edge g u b /\ edge g' u b).
Proof.
  intros directed g s [ND [ED SY]] AT TR. destruct (keys_ok g AT) as [keys K]. unfold connect_instruments. rewrite K.
  destruct (nodes_links directed keys g (keys_spec g keys K) s ND AT TR (map fst g) [] g eq_refl ED) as [r [g' [V [E [L [I C]]]]]]; [auto|].
  exists r, g', V. split; [exact E|]. split; [exact L|]. split; [|split; [exact I|exact C]].
  eapply links_closed; [exact ED| |exact L]. intros a b [u [v [_ H]]]. exact (joined_nodes keys g (keys_spec g keys K) s u v a b H).
Qed.
Lemma joined_neq : forall g s u a b, ~ joined_by g s u u a b.
Proof. intros g s u a b [qu [qv [un [vn [H1 [H2 [H3 _]]]]]]]. apply H3. rewrite (track_fun _ _ _ _ H1 H2). reflexivity. Qed.

(** C214: on an undirected graph in which every node has its attributes and its track, the call succeeds and
    changes neither the tracks nor the nodes.  No edge disappears.  For every edge of the graph the nodes of
    overlapping notes of two different instruments become joined with weight 1; every other edge of the
    result was there with its weight, or is such an edge (for an edge that may itself be new) with weight 1.
    Every edge is held at both ends. *)
Theorem C214_connect : forall g s, graph_ok false g -> attributed g -> (forall u, is_node g u -> exists q, has_track s u q) ->
  exists g', connect_instruments false g s = (Ok tt, (g', s)) /\ node_data g' = node_data g /\ graph_ok false g' /\
    (forall a b, edge g a b -> edge g' a b) /\
    (forall u v a b, edge g u v -> comes_before g u v -> joined_by g s u v a b -> weight_of g' a b = Some 1%Q /\ weight_of g' b a = Some 1%Q) /\
    (forall a b w, weight_of g' a b = Some w -> weight_of g a b = Some w \/
       w = 1%Q /\ exists u v, edge g' u v /\ comes_before g u v /\ (joined_by g s u v a b \/ joined_by g s u v b a)).
Proof.
  intros g s OK AT TR. destruct (connect_links false g s OK AT TR) as [r [g' [V [E [L [CL [I C]]]]]]]. destruct C as [[-> C]|[_ [X _]]]; [|discriminate].
  destruct OK as [ND [ED SY]]. pose proof (lk_data _ _ _ _ L) as D. pose proof (data_nodes _ _ D) as DN. exists g'. split; [exact E|]. split; [exact D|].
  split; [split; [rewrite DN; exact ND|]; split; [intros a b H; unfold is_node; rewrite DN; exact (CL a b H)|intros _; apply (lk_sym _ _ _ _ L); auto]|].
  split; [apply (lk_keep _ _ _ _ L)|]. split.
  - intros u v a b H [l1 [l2 [H1 H2]]] J. destruct (lk_to _ _ _ _ L a b) as [X Y]; [|auto]. exists u, v. split; [|exact J]. apply (C l1 u l2 v H1 H). intros _ IN.
    rewrite H1 in ND. apply NoDup_remove_1 in ND. clear - ND IN H2. induction l1 as [|x l1 IH]; [destruct IN|]. cbn in ND. inversion ND as [|? ? N1 N2]; subst. destruct IN as [->|IN]; [|auto]. apply N1, in_or_app. auto.
  - assert (G : forall u v a b, V u v -> joined_by g s u v a b -> edge g' u v /\ comes_before g u v).
    { intros u v a b H J. destruct (I u v H) as [I1 [l1 [l2 [I2 I3]]]]. split; [exact I1|]. exists l1, l2. split; [exact I2|]. destruct (CL u v I1) as [_ NV]. unfold is_node in NV. rewrite I2 in NV.
      apply in_app_or in NV as [NV|[NV|NV]]; [destruct (I3 eq_refl NV)|subst v; destruct (joined_neq _ _ _ _ _ J)|exact NV]. }
    intros a b w H. destruct (lk_from _ _ _ _ L a b w H) as [X|[X [[u [v [X1 X2]]]|[_ [u [v [X1 X2]]]]]]]; [left; exact X| |]; right; (split; [exact X|]); exists u, v; destruct (G u v _ _ X1 X2); auto.
Qed.
Print Assumptions C214_connect.

(** C214: on a directed graph the call may fail half-way with a RuntimeError, because it adds an edge to the
    very node whose edges it is going through; if it succeeds, every edge has been dealt with as above (one way). *)
Theorem C214_directed : forall g s, graph_ok true g -> attributed g -> (forall u, is_node g u -> exists q, has_track s u q) ->
  exists r g', connect_instruments true g s = (r, (g', s)) /\ node_data g' = node_data g /\ graph_ok true g' /\
    (forall a b, edge g a b -> edge g' a b) /\
    (forall a b w, weight_of g' a b = Some w -> weight_of g a b = Some w \/ w = 1%Q /\ exists u v, edge g' u v /\ joined_by g s u v a b) /\
    (r = Ok tt /\ (forall u v a b, edge g u v -> joined_by g s u v a b -> weight_of g' a b = Some 1%Q) \/
     r = Err RuntimeError /\ exists u v b, edge g' u v /\ joined_by g s u v u b /\ ~ edge g u b /\ edge g' u b).
Proof.
  intros g s OK AT TR. destruct (connect_links true g s OK AT TR) as [r [g' [V [E [L [CL [I C]]]]]]].
  destruct OK as [ND [ED SY]]. pose proof (lk_data _ _ _ _ L) as D. pose proof (data_nodes _ _ D) as DN. exists r, g'. split; [exact E|]. split; [exact D|].
  split; [split; [rewrite DN; exact ND|]; split; [intros a b H; unfold is_node; rewrite DN; exact (CL a b H)|discriminate]|].
  split; [apply (lk_keep _ _ _ _ L)|]. split.
  - intros a b w H. destruct (lk_from _ _ _ _ L a b w H) as [X|[X [[u [v [X1 X2]]]|[X0 _]]]]; [left; exact X| |discriminate]. right. split; [exact X|]. exists u, v. split; [apply I; exact X1|exact X2].
  - destruct C as [[-> C]|[-> [_ [u [v [b [C1 [C2 [C3 C4]]]]]]]]].
    + left. split; [reflexivity|]. intros u v a b H J. refine (proj1 (lk_to _ _ _ _ L a b _)). exists u, v. split; [|exact J]. destruct (ED u v H) as [NU _]. apply in_split in NU as [l1 [l2 NU]]. apply (C l1 u l2 v NU H). discriminate.
    + right. split; [reflexivity|]. exists u, v, b. split; [apply I; exact C1|auto].
Qed.
Print Assumptions C214_directed.

(** C214: if nothing is missing, a second run on the result of a first one that added no edge changes nothing:
    when all justified edges are there with weight 1 already, all weights stay. *)
Theorem C214_stable : forall directed g s, graph_ok directed g -> attributed g -> (forall u, is_node g u -> exists q, has_track s u q) ->
  (forall u v a b, edge g u v -> joined_by g s u v a b -> weight_of g a b = Some 1%Q) ->
  exists g', connect_instruments directed g s = (Ok tt, (g', s)) /\ forall a b, weight_of g' a b = weight_of g a b.
Proof.
  intros directed g s OK AT TR ST. destruct (connect_links directed g s OK AT TR) as [r [g' [V [E [L [CL [I C]]]]]]]. destruct OK as [ND [ED SY]].
  assert (G : forall a b w, weight_of g' a b = Some w -> weight_of g a b = Some w \/ w = 1%Q /\ exists u v, edge g' u v /\ (joined_by g s u v a b \/ directed = false /\ joined_by g s u v b a)).
  { intros a b w H. destruct (lk_from _ _ _ _ L a b w H) as [X|[X [[u [v [X1 X2]]]|[X0 [u [v [X1 X2]]]]]]]; [left; exact X| |]; right; (split; [exact X|]); exists u, v; (split; [apply I; exact X1|auto]). }
  (* the edges of g' are those of g *)
  assert (KE : forall a b, edge g' a b -> edge g a b).
  { (* edges are only justified by edges visited; argue on the run with an invariant *)
    destruct (keys_ok g AT) as [keys K]. unfold connect_instruments in E. rewrite K in E.
    assert (INV : forall ns seen h, node_data h = node_data g -> (forall a b, weight_of h a b = weight_of g a b) -> (forall u, In u ns -> is_node g u) ->
      forall r h' t, walk_nodes directed keys ns seen (h, s) = (r, (h', t)) -> forall a b, weight_of h' a b = weight_of g a b).
    { assert (ONE : forall u v h, node_data h = node_data g -> (forall a b, weight_of h a b = weight_of g a b) -> edge g u v -> exists h', connect_edge directed keys u v (h, s) = (Ok tt, (h', s)) /\ node_data h' = node_data g /\ (forall a b, weight_of h' a b = weight_of g a b)).
      { intros u v h DH WH EH. destruct (edge_links directed keys g (keys_spec g keys K) s ND AT TR u v h DH) as [h' [X1 X2]]; [apply (ED u v EH)|apply (ED u v EH)|].
        exists h'. split; [exact X1|]. split; [rewrite (lk_data _ _ _ _ X2); exact DH|]. intros a b. destruct (weight_of h' a b) as [w|] eqn:W.
        - destruct (lk_from _ _ _ _ X2 a b w W) as [Y|[-> [Y|[DF Y]]]]; [rewrite WH in Y; auto|symmetry; eapply ST; eauto|rewrite (SY DF); symmetry; eapply ST; eauto].
        - destruct (weight_of g a b) eqn:W'; auto. exfalso. apply (lk_keep _ _ _ _ X2 a b); [unfold edge; rewrite WH; congruence|exact W]. }
      assert (ROW : forall u seen size nbrs h, node_data h = node_data g -> (forall a b, weight_of h a b = weight_of g a b) -> (forall v, In v nbrs -> edge g u v) ->
        exists r h', walk_nbrs directed keys u size seen nbrs (h, s) = (r, (h', s)) /\ node_data h' = node_data g /\ (forall a b, weight_of h' a b = weight_of g a b)).
      { intros u seen size nbrs. induction nbrs as [|v nbrs IH]; intros h DH WH NH; cbn [walk_nbrs]; [exists (Ok tt), h; auto|].
        destruct (negb directed && existsb (Z.eqb v) seen); [apply IH; auto; intros; apply NH; right; auto|].
        destruct (ONE u v h DH WH) as [h' [X1 [X2 X3]]]; [apply NH; left; reflexivity|]. rewrite X1. destruct (directed && _); [exists (Err RuntimeError), h'; auto|]. apply IH; auto. intros; apply NH; right; auto. }
      intros ns. induction ns as [|u ns IH]; intros seen h DH WH NH r0 h' t EH; cbn [walk_nodes] in EH; [injection EH as <- <- <-; exact WH|]. cbn [fst] in EH.
      destruct (ROW u seen (List.length (adj_of h u)) (map fst (adj_of h u)) h DH WH) as [r1 [h1 [X1 [X2 X3]]]].
      { intros v IV. apply adj_edge in IV. unfold edge in *. rewrite <- WH. exact IV. }
      rewrite X1 in EH. destruct r1; [|injection EH as <- <- <-; exact X3]. refine (IH _ _ X2 X3 _ _ _ _ EH). intros; apply NH; right; auto. }
    intros a b H. unfold edge in *. rewrite <- (INV (map fst g) [] g eq_refl (fun _ _ => eq_refl) (fun _ H => H) _ _ _ E). exact H. }
  destruct C as [[-> C]|[_ [_ [u [v [b [_ [_ [C1 C2]]]]]]]]]; [|destruct (C1 (KE u b C2))].
  exists g'. split; [exact E|]. intros a b. destruct (weight_of g' a b) as [w|] eqn:W.
  - destruct (G a b w W) as [X|[-> [u [v [X1 [X2|[DF X2]]]]]]]; [auto|symmetry; eapply ST; eauto|rewrite (SY DF); symmetry; eapply ST; eauto].
  - destruct (weight_of g a b) eqn:W'; auto. exfalso. apply (lk_keep _ _ _ _ L a b); [unfold edge; congruence|exact W].
Qed.
Print Assumptions C214_stable.

Lemma set_nbr_keeps : forall g u v w a b, edge g a b -> edge (set_nbr g u v w) a b.
Proof.
  intros g u v w a b H. destruct (in_dec Z.eq_dec u (map fst g)) as [N|N].
  - unfold edge. rewrite set_nbr_weight by exact N. destruct (_ && _); [discriminate|exact H].
  - unfold set_nbr. apply (dict_get_None Z.eqb Z.eqb_spec) in N. rewrite N. exact H.
Qed.
Lemma link_keeps : forall directed keys g un vn a b, edge g a b -> edge (link directed keys g un vn) a b.
Proof.
  intros directed keys g un vn a b H. unfold link. destruct (n_overlaps un vn); auto. destruct (dict_get _ _ keys); auto. destruct (dict_get _ _ keys); auto.
  unfold add_wedge. destruct directed; repeat apply set_nbr_keeps; exact H.
Qed.
Lemma connect_edge_keeps : forall directed keys u v g s r g' s' a b, connect_edge directed keys u v (g, s) = (r, (g', s')) -> edge g a b -> edge g' a b.
Proof.
  intros directed keys u v g s r g' s' a b E H. unfold connect_edge in E.
  destruct (ms_getitem s u) as [[qu|e] s1]; [|injection E as <- <- <-; exact H]. destruct (ms_getitem s1 v) as [[qv|e] s2]; [|injection E as <- <- <-; exact H].
  destruct (i_eqb _ _); [injection E as <- <- <-; exact H|]. destruct (ms_getitem s2 u) as [[qu'|e] s3]; [|injection E as <- <- <-; exact H]. destruct (start_of g u); [|injection E as <- <- <-; exact H].
  destruct (ms_getitem s3 v) as [[qv'|e] s4]; [|injection E as <- <- <-; exact H]. destruct (start_of g v); [|injection E as <- <- <-; exact H]. injection E as <- <- <-.
  unfold link_all. revert g H. induction (filter _ (q_notes qu')) as [|un us IH]; intros g H; cbn [fold_left]; [exact H|]. apply IH. clear IH. revert g H.
  induction (filter _ (q_notes qv')) as [|vn vs IH]; intros g H; cbn [fold_left]; [exact H|]. apply IH, link_keeps, H.
Qed.
Lemma connect_edge_range : forall directed keys u v g s g' s', connect_edge directed keys u v (g, s) = (Ok tt, (g', s')) -> 0 <= u < 128 /\ 0 <= v < 128.
Proof.
  intros directed keys u v g s g' s' E. unfold connect_edge in E.
  assert (R : forall s u q t, ms_getitem s u = (Ok q, t) -> 0 <= u < 128).
  { intros s0 x q t X. unfold ms_getitem in X. destruct (Z.ltb_spec x 0); [discriminate|]. destruct (Z.leb_spec 128 x); [discriminate|]. lia. }
  destruct (ms_getitem s u) as [[qu|e] s1] eqn:E1; [|discriminate]. destruct (ms_getitem s1 v) as [[qv|e] s2] eqn:E2; [|discriminate]. split; eapply R; eauto.
Qed.
(** C214: node names are track numbers: a call that succeeds, whatever tracks there were, met no edge with an
    end outside 0 .. 127. *)
Theorem C214_range : forall directed g s g' s', graph_ok directed g -> connect_instruments directed g s = (Ok tt, (g', s')) ->
  forall u v, edge g u v -> 0 <= u < 128 /\ 0 <= v < 128.
Proof.
  intros directed g s g' s' [ND [ED SY]] E. unfold connect_instruments in E. destruct (node_keys g) as [keys|]; [|discriminate].
  assert (ROW : forall u seen size nbrs h t h' t', walk_nbrs directed keys u size seen nbrs (h, t) = (Ok tt, (h', t')) ->
    (forall a b, edge h a b -> edge h' a b) /\ (forall v, In v nbrs -> (directed = false -> ~ In v seen) -> 0 <= u < 128 /\ 0 <= v < 128)).
  { intros u seen size nbrs. induction nbrs as [|v nbrs IH]; intros h t h' t' EH; cbn [walk_nbrs] in EH; [injection EH as <- <-; split; [auto|intros v []]|].
    destruct (negb directed && existsb (Z.eqb v) seen) eqn:SK.
    - apply IH in EH as [A B]. split; [exact A|]. intros w [<-|IW] HW; [|auto]. apply andb_true_iff in SK as [S1 S2]. apply negb_true_iff in S1. apply existsb_exists in S2 as [w [S2 S3]]. apply Z.eqb_eq in S3 as <-. destruct (HW S1 S2).
    - destruct (connect_edge directed keys u v (h, t)) as [[[]|e] [h1 t1]] eqn:CE; [|discriminate]. destruct (directed && _); [discriminate|]. apply IH in EH as [A B]. split; [intros a b H; apply A; eapply connect_edge_keeps; eauto|].
      intros w [<-|IW] HW; [eapply connect_edge_range; eauto|auto]. }
  assert (ALL : forall ns seen h t h' t', walk_nodes directed keys ns seen (h, t) = (Ok tt, (h', t')) ->
    forall l1 u l2 v, ns = l1 ++ u :: l2 -> edge h u v -> (directed = false -> ~ In v (seen ++ l1)) -> 0 <= u < 128 /\ 0 <= v < 128).
  { intros ns. induction ns as [|x ns IH]; intros seen h t h' t' EH l1 u l2 v EN EV HV; [destruct l1; discriminate|]. cbn [walk_nodes fst] in EH.
    destruct (walk_nbrs directed keys x (List.length (adj_of h x)) seen (map fst (adj_of h x)) (h, t)) as [[[]|e] [h1 t1]] eqn:W; [|discriminate].
    apply ROW in W as [A B]. destruct l1 as [|y l1]; cbn in EN; injection EN as -> EN.
    - apply B; [apply adj_edge; exact EV|]. rewrite app_nil_r in HV. exact HV.
    - apply (IH _ _ _ _ _ EH l1 u l2 v EN); [apply A; exact EV|]. intros DF X. apply (HV DF). apply in_app_or in X. apply in_or_app. destruct X as [[X|X]|X]; [right; left; exact X|left; exact X|right; right; exact X]. }
  intros u v H. destruct (ED u v H) as [NU NV]. destruct directed.
  - apply in_split in NU as [l1 [l2 NU]]. apply (ALL _ _ _ _ _ _ E l1 u l2 v NU H). discriminate.
  - apply in_split in NU as [l1 [l2 NU]]. destruct (in_dec Z.eq_dec v l1) as [IV|IV].
    + apply in_split in IV as [k1 [k2 IV]]. subst l1. rewrite <- app_assoc in NU. cbn in NU.
      assert (0 <= v < 128 /\ 0 <= u < 128); [|tauto]. apply (ALL _ _ _ _ _ _ E k1 v _ u NU); [unfold edge; rewrite (SY eq_refl); exact H|]. intros _ X. cbn in X.
      rewrite NU in ND. clear - ND X. induction k1 as [|x k1 IH]; [destruct X|]. cbn in ND. inversion ND as [|? ? N1 N2]; subst. destruct X as [->|X]; [|auto]. apply N1. apply in_or_app. right. right. apply in_or_app. right. left. reflexivity.
    + apply (ALL _ _ _ _ _ _ E l1 u l2 v NU H). intros _. exact IV.
Qed.
Print Assumptions C214_range.

(** A piano track 0 and a bass track 1 with overlapping notes: nodes 1 and 2 become linked, the edge between 0
    and 1 gets weight 1, that between 2 and 3 stays. *)
Definition nt (p i : Z) (s e : Q) : note := mkN p 64 0 i 0 4 4 false s e (-1) (-1).
Definition c214_ms : mseqs :=
  put_reg (put_track (put_reg (put_track (put_reg (put_track (put_reg (put_track (ms_empty 480)
    0 (q_new [nt 60 0 0 2; nt 64 0 0 (3 # 2)] (mkI 0 "Piano" false) 480)) 0 0)
    1 (q_new [nt 40 1 1 3] (mkI 33 "Bass" false) 480)) 1 1)
    2 (q_new [nt 64 0 0 1] (mkI 0 "Piano" false) 480)) 2 2)
    3 (q_new [nt 45 1 5 6] (mkI 33 "Bass" false) 480)) 3 3.
Definition c214_g : wgraph :=
  [(0, mkV (Some (GPitch 60)) (Some 0%Q) [(1, 5%Q)]); (1, mkV (Some (GPitch 40)) (Some 1%Q) [(0, 5%Q)]);
   (2, mkV (Some (GPitch 64)) (Some 0%Q) [(3, 2%Q)]); (3, mkV (Some (GText "A2")) (Some 5%Q) [(2, 2%Q)])].
Example C214_case : connect_instruments false c214_g c214_ms =
  (Ok tt, ([(0, mkV (Some (GPitch 60)) (Some 0%Q) [(1, 1%Q)]); (1, mkV (Some (GPitch 40)) (Some 1%Q) [(0, 1%Q); (2, 1%Q)]);
            (2, mkV (Some (GPitch 64)) (Some 0%Q) [(3, 2%Q); (1, 1%Q)]); (3, mkV (Some (GText "A2")) (Some 5%Q) [(2, 2%Q)])], c214_ms)).
Proof. vm_compute. reflexivity. Qed.
Example C214_hyp : graph_ok false c214_g /\ attributed c214_g /\ (forall u, is_node c214_g u -> exists q, has_track c214_ms u q) /\
  edge c214_g 0 1 /\ comes_before c214_g 0 1 /\ joined_by c214_g c214_ms 0 1 2 1.
Proof.
  assert (T : forall u, is_node c214_g u -> exists q, has_track c214_ms u q).
  { intros u H. cbn in H. destruct H as [<-|[<-|[<-|[<-|[]]]]]; eexists; (split; [lia|]); eexists; split; reflexivity. }
  split; [|split; [|split; [exact T|split; [discriminate|split]]]].
  - split; [repeat constructor; cbn; lia|]. assert (W : forall a b, weight_of c214_g a b = if (a =? 0) && (b =? 1) || (a =? 1) && (b =? 0) then Some 5%Q else if (a =? 2) && (b =? 3) || (a =? 3) && (b =? 2) then Some 2%Q else None).
    { intros a b. unfold weight_of, c214_g. cbn [dict_get]. rewrite !(Z.eqb_sym _ a). destruct (Z.eqb_spec a 0) as [->|]; [|destruct (Z.eqb_spec a 1) as [->|]; [|destruct (Z.eqb_spec a 2) as [->|]; [|destruct (Z.eqb_spec a 3) as [->|]]]]; cbn [v_adj dict_get]; rewrite ?(Z.eqb_sym _ b); destruct (Z.eqb_spec b 0), (Z.eqb_spec b 1), (Z.eqb_spec b 2), (Z.eqb_spec b 3); subst; try lia; reflexivity. }
    split.
    + intros a b H. unfold edge in H. rewrite W in H. unfold is_node. cbn. destruct (Z.eqb_spec a 0), (Z.eqb_spec a 1), (Z.eqb_spec a 2), (Z.eqb_spec a 3), (Z.eqb_spec b 0), (Z.eqb_spec b 1), (Z.eqb_spec b 2), (Z.eqb_spec b 3); cbn in H; subst; try lia; try congruence; auto 10.
    + intros _ a b. rewrite !W. destruct (Z.eqb_spec a 0), (Z.eqb_spec a 1), (Z.eqb_spec a 2), (Z.eqb_spec a 3), (Z.eqb_spec b 0), (Z.eqb_spec b 1), (Z.eqb_spec b 2), (Z.eqb_spec b 3); subst; try lia; reflexivity.
  - intros a x H. cbn in H. destruct H as [H|[H|[H|[H|[]]]]]; injection H as <- <-; split; discriminate.
  - exists [], [1; 2; 3]. split; [reflexivity|left; reflexivity].
  - destruct (T 0) as [q0 T0]; [left; reflexivity|]. destruct (T 1) as [q1 T1]; [right; left; reflexivity|].
    assert (E0 : q0 = q_new [nt 60 0 0 2; nt 64 0 0 (3 # 2)] (mkI 0 "Piano" false) 480) by (apply track_get in T0; cbn in T0; congruence).
    assert (E1 : q1 = q_new [nt 40 1 1 3] (mkI 33 "Bass" false) 480) by (apply track_get in T1; cbn in T1; congruence).
    exists q0, q1, (nt 64 0 0 (3 # 2)), (nt 40 1 1 3). split; [exact T0|]. split; [exact T1|]. rewrite E0, E1. split; [discriminate|].
    split; [split; [right; left; reflexivity|]; eexists; exists 0%Q; split; [left; reflexivity|]; split; reflexivity|].
    split; [split; [left; reflexivity|]; eexists; exists 1%Q; split; [right; left; reflexivity|]; split; reflexivity|].
    split; [left; cbn; split; [lra|lra]|]. split.
    + exists (firstn 2 c214_g). eexists. exists (skipn 3 c214_g). split; [reflexivity|]. split; [split; [reflexivity|exists 0%Q; split; reflexivity]|]. intros b y H [H1 _]. cbn in H. destruct H as [H|[]]. injection H as <- <-. discriminate.
    + exists (firstn 1 c214_g). eexists. exists (skipn 2 c214_g). split; [reflexivity|]. split; [split; [reflexivity|exists 1%Q; split; reflexivity]|]. intros b y H [H1 _]. cbn in H. destruct H as [H|[H|[]]]; injection H as <- <-; discriminate.
Qed.
(** A DiGraph: going through the edges of node 0 adds the edge from 0 to 2, then the iteration raises. *)
Example C214_directed_case :
  let g := [(0, mkV (Some (GPitch 64)) (Some 0%Q) [(1, 5%Q)]); (1, mkV (Some (GPitch 41)) (Some 1%Q) []); (2, mkV (Some (GPitch 40)) (Some 1%Q) [])] in
  connect_instruments true g c214_ms =
  (Err RuntimeError, ([(0, mkV (Some (GPitch 64)) (Some 0%Q) [(1, 5%Q); (2, 1%Q)]); (1, mkV (Some (GPitch 41)) (Some 1%Q) []); (2, mkV (Some (GPitch 40)) (Some 1%Q) [])], c214_ms)).
Proof. vm_compute. reflexivity. Qed.
