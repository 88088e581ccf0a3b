(** Lemmas for connect_instruments: the loops. *)
From Coq Require Import QArith Lia Bool Permutation Lqa.
From Verif Require Import PyBase L_Base M_SortedDict M_Note M_Events M_Seq M_Chord M_Seqs M_Connect S_Connect L_Chord L_Connect.
Open Scope Z_scope.
Open Scope list_scope.

Lemma overlaps_iff : forall a b, n_overlaps a b = true <-> notes_overlap a b.
Proof.
  intros a b. unfold n_overlaps, notes_overlap. rewrite !orb_true_iff, !andb_true_iff, !Qle_bool_iff, !Qltb_lt. tauto.
Qed.
Lemma i_eqb_iff : forall a b, i_eqb a b = true <-> a = b.
Proof.
  intros [a1 a2 a3] [b1 b2 b3]. unfold i_eqb. cbn. rewrite !andb_true_iff, Z.eqb_eq, String.eqb_eq, Bool.eqb_true_iff. split; [intros [[-> ->] ->]; reflexivity|intros E; injection E; auto].
Qed.
Lemma track_get : forall s u q, has_track s u q -> ms_getitem s u = (Ok q, s).
Proof.
  intros s u q [R [j [J T]]]. unfold ms_getitem, reg, trk. destruct (Z.ltb_spec u 0); [lia|]. destruct (Z.leb_spec 128 u); [lia|]. cbn. rewrite J, T. reflexivity.
Qed.
Lemma track_fun : forall s u q q', has_track s u q -> has_track s u q' -> q = q'.
Proof. intros s u q q' H H'. apply track_get in H. apply track_get in H'. congruence. Qed.

Definition joins (keys : list ((glabel * Q) * Z)) (un vn : note) (a b : Z) : Prop :=
  n_overlaps un vn = true /\ dict_get key_eqb (GPitch (n_pitch un), n_start un) keys = Some a /\ dict_get key_eqb (GPitch (n_pitch vn), n_start vn) keys = Some b.
Section Loop.
Variables (directed : bool) (keys : list ((glabel * Q) * Z)) (g0 : wgraph).
Hypothesis KN : forall p t a, dict_get key_eqb (GPitch p, t) keys = Some a <-> node_at g0 p t a.
Lemma at_node : forall p t a, node_at g0 p t a -> is_node g0 a.
Proof. intros p t a [g1 [x [g2 [-> _]]]]. unfold is_node. rewrite map_app. apply in_or_app. right. left. reflexivity. Qed.
Lemma link_links : forall g un vn, node_data g = node_data g0 -> links directed (joins keys un vn) g (link directed keys g un vn).
Proof.
  intros g un vn D. pose proof (data_nodes _ _ D) as DN. unfold link, joins. destruct (n_overlaps un vn); [|apply links_none; intros a b [X _]; discriminate].
  destruct (dict_get key_eqb (GPitch (n_pitch un), n_start un) keys) as [a|] eqn:A; [|apply links_none; intros a b [_ [X _]]; discriminate].
  destruct (dict_get key_eqb (GPitch (n_pitch vn), n_start vn) keys) as [b|] eqn:B; [|apply links_none; intros a' b [_ [_ X]]; discriminate].
  eapply links_iff; [|apply links_add].
  - intros x y. cbn. split; [intros [-> ->]; auto|intros [_ [X Y]]; split; congruence].
  - unfold is_node. rewrite DN. apply KN in A. apply at_node in A. exact A.
  - unfold is_node. rewrite DN. apply KN in B. apply at_node in B. exact B.
Qed.
Lemma link_row : forall un vs g, node_data g = node_data g0 ->
  links directed (fun a b => exists vn, In vn vs /\ joins keys un vn a b) g (fold_left (fun g vn => link directed keys g un vn) vs g).
Proof.
  intros un vs. induction vs as [|vn vs IH]; intros g D; cbn [fold_left]; [apply links_none; intros a b [vn [[] _]]|].
  pose proof (link_links g un vn D) as L. assert (D' : node_data (link directed keys g un vn) = node_data g0) by (rewrite (lk_data _ _ _ _ L); exact D).
  eapply links_iff; [|apply (links_trans _ _ _ _ _ _ L (IH _ D'))]. intros a b. cbn. split.
  - intros [H|[v [I H]]]; eauto.
  - intros [v [[<-|I] H]]; eauto.
Qed.
Lemma link_all_links : forall us vs g, node_data g = node_data g0 ->
  links directed (fun a b => exists un vn, In un us /\ In vn vs /\ joins keys un vn a b) g (link_all directed keys us vs g).
Proof.
  intros us vs. unfold link_all. induction us as [|un us IH]; intros g D; cbn [fold_left]; [apply links_none; intros a b [un [vn [[] _]]]|].
  pose proof (link_row un vs g D) as L. assert (D' : node_data (fold_left (fun g vn => link directed keys g un vn) vs g) = node_data g0) by (rewrite (lk_data _ _ _ _ L); exact D).
  eapply links_iff; [|apply (links_trans _ _ _ _ _ _ L (IH _ D'))]. intros a b. cbn. split.
  - intros [[v [I H]]|[un' [v [I [I' H]]]]]; [exists un, v; auto|exists un', v; auto].
  - intros [un' [v [[<-|I] [I' H]]]]; [left; eauto|right; eauto].
Qed.

Variable s : mseqs.
Hypothesis ND : NoDup (map fst g0).
Hypothesis AT : attributed g0.
Hypothesis TR : forall u, is_node g0 u -> exists q, has_track s u q.
Lemma start_iff : forall u t, start_of g0 u = Some t <-> exists x, In (u, x) g0 /\ v_start x = Some t.
Proof.
  intros u t. unfold start_of. split.
  - destruct (dict_get Z.eqb u g0) as [x|] eqn:X; [|discriminate]. intros T. exists x. split; auto. apply (dict_get_In Z.eqb Z.eqb_spec). exact X.
  - intros [x [I T]]. rewrite (dict_In_get Z.eqb Z.eqb_spec _ _ _ ND I). exact T.
Qed.
Lemma node_start : forall u, is_node g0 u -> exists t, start_of g0 u = Some t.
Proof.
  intros u H. apply is_node_get in H as [x X]. unfold start_of. rewrite X. apply (dict_get_In Z.eqb Z.eqb_spec) in X. apply AT in X as [_ X]. destruct (v_start x); [eauto|congruence].
Qed.
Lemma edge_links : forall u v g, node_data g = node_data g0 -> is_node g0 u -> is_node g0 v ->
  exists g', connect_edge directed keys u v (g, s) = (Ok tt, (g', s)) /\ links directed (joined_by g0 s u v) g g'.
Proof.
  intros u v g D NU NV. destruct (TR u NU) as [qu TU]. destruct (TR v NV) as [qv TV]. destruct (node_start u NU) as [tu SU]. destruct (node_start v NV) as [tv SV].
  unfold connect_edge. rewrite (track_get _ _ _ TU), (track_get _ _ _ TV).
  destruct (i_eqb (q_instr qu) (q_instr qv)) eqn:IE.
  - exists g. split; [reflexivity|]. apply links_none. intros a b [qu' [qv' [un [vn [H1 [H2 [H3 _]]]]]]]. apply H3. rewrite <- (track_fun _ _ _ _ TU H1), <- (track_fun _ _ _ _ TV H2). apply i_eqb_iff. exact IE.
  - rewrite (track_get _ _ _ TU), (data_start g0 g u D), SU, (track_get _ _ _ TV), (data_start g0 g v D), SV. eexists. split; [reflexivity|]. eapply links_iff; [|apply link_all_links; exact D]. intros a b. cbv beta. unfold joins, joined_by. split.
    + intros [un [vn [I1 [I2 [O [A B]]]]]]. apply filter_In in I1 as [I1 Q1]. apply filter_In in I2 as [I2 Q2]. apply Qeq_bool_iff in Q1, Q2. apply overlaps_iff in O. apply KN in A. apply KN in B.
      apply start_iff in SU as [xu [XU1 XU2]]. apply start_iff in SV as [xv [XV1 XV2]].
      exists qu, qv, un, vn. split; [exact TU|]. split; [exact TV|]. split; [intro E; apply i_eqb_iff in E; congruence|].
      split; [split; [exact I1|exists xu, tu; auto]|]. split; [split; [exact I2|exists xv, tv; auto]|]. auto.
    + intros [qu' [qv' [un [vn [H1 [H2 [_ [[I1 [xu [tu' [X1 [X2 X3]]]]] [[I2 [xv [tv' [Y1 [Y2 Y3]]]]] [O [A B]]]]]]]]]]].
      rewrite <- (track_fun _ _ _ _ TU H1) in I1. rewrite <- (track_fun _ _ _ _ TV H2) in I2. exists un, vn.
      assert (E1 : start_of g0 u = Some tu') by (apply start_iff; eauto). assert (E2 : start_of g0 v = Some tv') by (apply start_iff; eauto).
      rewrite SU in E1. rewrite SV in E2. injection E1 as <-. injection E2 as <-.
      split; [apply filter_In; split; auto; apply Qeq_bool_iff; auto|]. split; [apply filter_In; split; auto; apply Qeq_bool_iff; auto|]. split; [apply overlaps_iff; auto|]. split; apply KN; auto.
Qed.

(** One node: the edges [done] were handled. *)
Lemma nbrs_links : forall u size seen nbrs g, node_data g = node_data g0 -> is_node g0 u -> (forall v, In v nbrs -> is_node g0 v) -> (directed = true -> size = List.length (adj_of g u)) ->
  exists r g' done, walk_nbrs directed keys u size seen nbrs (g, s) = (r, (g', s)) /\ links directed (fun a b => exists v, In v done /\ joined_by g0 s u v a b) g g' /\
    (forall v, In v done -> In v nbrs /\ (directed = false -> ~ In v seen)) /\
    (r = Ok tt /\ (forall v, In v nbrs -> (directed = false -> ~ In v seen) -> In v done) \/
     r = Err RuntimeError /\ directed = true /\ exists v b, In v done /\ joined_by g0 s u v u b /\ ~ edge g u b /\ edge g' u b).
Proof.
  intros u size seen nbrs. induction nbrs as [|v nbrs IH]; intros g D NU NB SZ; cbn [walk_nbrs].
  - exists (Ok tt), g, []. split; [reflexivity|]. split; [apply links_none; intros a b [v [[] _]]|]. split; [intros v []|]. left. split; [reflexivity|intros v []].
  - destruct (negb directed && existsb (Z.eqb v) seen) eqn:SK.
    + destruct (IH g D NU) as [r [g' [dn [E [L [I C]]]]]]; [intros; apply NB; right; auto|auto|]. exists r, g', dn. split; [exact E|]. split; [exact L|]. split; [intros w H; destruct (I w H); split; [right|]; auto|].
      destruct C as [[-> C]|C]; [left|right; exact C]. split; [reflexivity|]. intros w [<-|H] H'; [|auto]. apply andb_true_iff in SK as [S1 S2]. apply negb_true_iff in S1. apply existsb_exists in S2 as [w [S2 S3]]. apply Z.eqb_eq in S3 as <-. destruct (H' S1 S2).
    + assert (NS : directed = false -> ~ In v seen). { intros DF IS. rewrite DF in SK. cbn in SK. assert (existsb (Z.eqb v) seen = true); [|congruence]. apply existsb_exists. exists v. split; auto. apply Z.eqb_refl. }
      destruct (edge_links u v g D NU) as [g1 [E1 L1]]; [apply NB; left; reflexivity|]. rewrite E1. cbn [fst].
      assert (D1 : node_data g1 = node_data g0) by (rewrite (lk_data _ _ _ _ L1); exact D).
      destruct (directed && negb (Nat.eqb (List.length (adj_of g1 u)) size)) eqn:CH.
      * apply andb_true_iff in CH as [DT CH]. apply negb_true_iff, Nat.eqb_neq in CH. exists (Err RuntimeError), g1, [v]. split; [reflexivity|].
        split; [eapply links_iff; [|exact L1]; intros a b; split; [intros H; exists v; split; [left|]; auto|intros [w [[<-|[]] H]]; exact H]|].
        split; [intros w [<-|[]]; split; [left; reflexivity|exact NS]|]. right. split; [reflexivity|]. split; [exact DT|].
        assert (X : exists b, edge g1 u b /\ ~ edge g u b).
        { destruct (existsb (fun b => negb (existsb (Z.eqb b) (map fst (adj_of g u)))) (map fst (adj_of g1 u))) eqn:EX.
          - apply existsb_exists in EX as [b [B1 B2]]. exists b. split; [apply adj_edge; exact B1|]. intro H. apply adj_edge in H. apply negb_true_iff in B2. assert (existsb (Z.eqb b) (map fst (adj_of g u)) = true); [|congruence]. apply existsb_exists. exists b. split; auto. apply Z.eqb_refl.
          - exfalso. apply CH. rewrite (SZ DT). apply (lk_len _ _ _ _ L1). intros b H. apply adj_edge in H. apply adj_edge. destruct (in_dec Z.eq_dec b (map fst (adj_of g u))) as [|NI]; auto. exfalso.
            assert (existsb (fun b => negb (existsb (Z.eqb b) (map fst (adj_of g u)))) (map fst (adj_of g1 u)) = true); [|congruence]. apply existsb_exists. exists b. split; auto. apply negb_true_iff. apply not_true_iff_false. intro X. apply existsb_exists in X as [c [X1 X2]]. apply Z.eqb_eq in X2 as <-. contradiction. }
        destruct X as [b [B1 B2]]. exists v, b. split; [left; reflexivity|]. split; [|auto]. unfold edge in B1. destruct (weight_of g1 u b) as [w|] eqn:W; [|congruence].
        destruct (lk_from _ _ _ _ L1 u b w W) as [H|[_ [H|[H _]]]]; [exfalso; apply B2; unfold edge; congruence|exact H|congruence].
      * assert (SZ1 : directed = true -> size = List.length (adj_of g1 u)). { intros DT. rewrite DT in CH. cbn in CH. apply negb_false_iff, Nat.eqb_eq in CH. auto. }
        destruct (IH g1 D1 NU) as [r [g' [dn [E [L [I C]]]]]]; [intros; apply NB; right; auto|exact SZ1|]. exists r, g', (v :: dn). split; [exact E|].
        split; [eapply links_iff; [|exact (links_trans _ _ _ _ _ _ L1 L)]; intros a b; cbn; split; [intros [H|[w [H1 H2]]]; [exists v; auto|exists w; auto]|intros [w [[<-|H1] H2]]; [left; auto|right; eauto]]|].
        split; [intros w [<-|H]; [split; [left; reflexivity|exact NS]|destruct (I w H); split; [right|]; auto]|].
        destruct C as [[-> C]|[-> [DT [w [b [C1 [C2 [C3 C4]]]]]]]].
        -- left. split; [reflexivity|]. intros w [<-|H] H'; [left; reflexivity|right; auto].
        -- right. split; [reflexivity|]. split; [exact DT|]. exists w, b. split; [right; exact C1|]. split; [exact C2|]. split; [|exact C4]. intro H. apply C3, (lk_keep _ _ _ _ L1), H.
Qed.

Hypothesis ED : forall a b, edge g0 a b -> is_node g0 a /\ is_node g0 b.
Definition closed (g : wgraph) : Prop := forall a b, edge g a b -> is_node g0 a /\ is_node g0 b.
Lemma joined_nodes : forall u v a b, joined_by g0 s u v a b -> is_node g0 a /\ is_node g0 b.
Proof. intros u v a b [qu [qv [un [vn [_ [_ [_ [_ [_ [_ [A B]]]]]]]]]]]. split; eapply at_node; eauto. Qed.
Lemma links_closed : forall (J : Z -> Z -> Prop) g g', closed g -> (forall a b, J a b -> is_node g0 a /\ is_node g0 b) -> links directed J g g' -> closed g'.
Proof.
  intros J g g' C H L a b E. unfold edge in E. destruct (weight_of g' a b) as [w|] eqn:W; [|congruence].
  destruct (lk_from _ _ _ _ L a b w W) as [X|[_ [X|[_ X]]]]; [apply C; unfold edge; congruence|auto|apply H in X; tauto].
Qed.
Lemma nodes_links : forall ns seen g, node_data g = node_data g0 -> closed g -> (forall u, In u ns -> is_node g0 u) ->
  exists r g' (V : Z -> Z -> Prop), walk_nodes directed keys ns seen (g, s) = (r, (g', s)) /\
    links directed (fun a b => exists u v, V u v /\ joined_by g0 s u v a b) g g' /\
    (forall u v, V u v -> edge g' u v /\ exists l1 l2, ns = l1 ++ u :: l2 /\ (directed = false -> ~ In v (seen ++ l1))) /\
    (r = Ok tt /\ (forall l1 u l2 v, ns = l1 ++ u :: l2 -> edge g u v -> (directed = false -> ~ In v (seen ++ l1)) -> V u v) \/
     r = Err RuntimeError /\ directed = true /\ exists u v b, V u v /\ joined_by g0 s u v u b /\ ~ edge g u b /\ edge g' u b).
Proof.
  intros ns. induction ns as [|u ns IH]; intros seen g D CL NN; cbn [walk_nodes].
  - exists (Ok tt), g, (fun _ _ => False). split; [reflexivity|]. split; [apply links_none; intros a b [u [v [[] _]]]|]. split; [intros u v []|]. left. split; [reflexivity|]. intros l1 u l2 v E. destruct l1; discriminate.
  - cbn [fst]. assert (NU : is_node g0 u) by (apply NN; left; reflexivity).
    destruct (nbrs_links u (List.length (adj_of g u)) seen (map fst (adj_of g u)) g D NU) as [r1 [g1 [dn [E1 [L1 [I1 C1]]]]]]; [intros v H; apply adj_edge in H; apply CL in H; tauto|auto|].
    rewrite E1. assert (D1 : node_data g1 = node_data g0) by (rewrite (lk_data _ _ _ _ L1); exact D).
    assert (CL1 : closed g1) by (eapply links_closed; [exact CL| |exact L1]; intros a b [v [_ H]]; eapply joined_nodes; eauto).
    destruct C1 as [[-> C1]|[-> [DT [v [b [B1 [B2 [B3 B4]]]]]]]].
    + destruct (IH (u :: seen) g1 D1 CL1) as [r [g' [V [E [L [I C]]]]]]; [intros; apply NN; right; auto|]. exists r, g', (fun x y => x = u /\ In y dn \/ V x y). split; [exact E|].
      split; [eapply links_iff; [|exact (links_trans _ _ _ _ _ _ L1 L)]; intros a b; cbn; split; [intros [[v [H1 H2]]|[x [y [H1 H2]]]]; [exists u, v; auto|exists x, y; auto]|intros [x [y [[[-> H1]|H1] H2]]]; [left; eauto|right; eauto]]|].
      split.
      { intros x y [[-> H]|H].
        - destruct (I1 y H) as [I2 I3]. split; [apply (lk_keep _ _ _ _ L), (lk_keep _ _ _ _ L1), adj_edge, I2|]. exists [], ns. split; [reflexivity|]. rewrite app_nil_r. exact I3.
        - destruct (I x y H) as [I2 [l1 [l2 [I3 I4]]]]. split; [exact I2|]. exists (u :: l1), l2. split; [rewrite I3; reflexivity|]. intros DF X. apply (I4 DF). apply in_app_or in X. apply in_or_app. destruct X as [X|[X|X]]; [left; right; exact X|left; left; exact X|right; exact X]. }
      destruct C as [[-> C]|[-> [DT [x [y [b [B1 [B2 [B3 B4]]]]]]]]].
      * left. split; [reflexivity|]. intros l1 x l2 y EE H HH. destruct l1 as [|z l1]; cbn in EE; injection EE as -> EE.
        -- left. split; [reflexivity|]. apply C1; [apply adj_edge; exact H|]. rewrite app_nil_r in HH. exact HH.
        -- right. apply (C l1 x l2 y EE); [apply (lk_keep _ _ _ _ L1), H|]. intros DF X. apply (HH DF). apply in_app_or in X. apply in_or_app. destruct X as [[X|X]|X]; [right; left; exact X|left; exact X|right; right; exact X].
      * right. split; [reflexivity|]. split; [exact DT|]. exists x, y, b. split; [right; exact B1|]. split; [exact B2|]. split; [|exact B4]. intro H. apply B3, (lk_keep _ _ _ _ L1), H.
    + exists (Err RuntimeError), g1, (fun x y => x = u /\ In y dn). split; [reflexivity|].
      split; [eapply links_iff; [|exact L1]; intros a c; split; [intros [w [H1 H2]]; exists u, w; auto|intros [x [w [[-> H1] H2]]]; exists w; auto]|].
      split; [intros x y [-> H]; destruct (I1 y H) as [I2 I3]; split; [apply (lk_keep _ _ _ _ L1), adj_edge, I2|exists [], ns; split; [reflexivity|rewrite app_nil_r; exact I3]]|].
      right. split; [reflexivity|]. split; [exact DT|]. exists u, v, b. auto.
Qed.
End Loop.
