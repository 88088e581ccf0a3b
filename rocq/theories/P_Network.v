(** Properties C182-C185: node classification by NeuralGraphComposer in evaluation mode.
    [forward n feats edges] are the scores of the nodes with features [feats], joined by [edges]. *)
From Coq Require Import Reals Lra Lia Permutation.
From Verif Require Import PyBase M_Network S_Network L_Network S_Network2 L_Network2.

(** C182: the scores exist exactly if all edges join existing nodes, one row for each node; and two nodes, of one
    graph or of two, that look alike from a distance of at most the number of convolutions get the same
    scores, whatever the weights. *)
Theorem C182_alike : forall n,
  (forall feats edges, valid feats edges -> exists out, forward n feats edges = Ok out /\ List.length out = List.length feats) /\
  (forall feats edges, ~ valid feats edges -> forward n feats edges = Err IndexError) /\
  (forall feats edges feats' edges' i i' out out', forward n feats edges = Ok out -> forward n feats' edges' = Ok out' -> (i < List.length feats)%nat ->
     alike (List.length (w_convs n)) feats edges feats' edges' i i' -> nth_error out i = nth_error out' i').
Proof.
  intros n. split; [intros; apply forward_ok; auto|]. split; [intros; apply forward_err; auto|]. intros feats edges feats' edges' i i' out out' E E' I A.
  assert (V : valid feats edges).
  { apply Forall_forall. intros e He. unfold forward in E. destruct (forallb _ edges) eqn:F; [|discriminate]. rewrite forallb_forall in F. specialize (F e He). rewrite andb_true_iff, !Nat.ltb_lt in F. auto. }
  eapply forward_alike; eauto.
Qed.
Print Assumptions C182_alike.

(** C183: the scores do not depend on the order in which edges are listed; renumbering the nodes renumbers the
    scores; and the scores of two graphs in one batch are those of each graph alone. *)
Theorem C183_order : forall n feats edges edges', Permutation edges edges' -> forward n feats edges = forward n feats edges'.
Proof.
  intros n feats edges edges' P.
  assert (D : valid feats edges \/ ~ valid feats edges).
  { unfold valid. destruct (Forall_dec (fun e => (fst e < List.length feats)%nat /\ (snd e < List.length feats)%nat)) with (l := edges) as [H|H]; auto.
    intros e. destruct (lt_dec (fst e) (List.length feats)), (lt_dec (snd e) (List.length feats)); auto; right; tauto. }
  destruct D as [V|V].
  - assert (V' : valid feats edges') by (unfold valid in *; rewrite Forall_forall in *; intros e He; apply V; eapply Permutation_in; [apply Permutation_sym|]; eauto).
    destruct (forward_ok n feats edges V) as (o & E & L). destruct (forward_ok n feats edges' V') as (o' & E' & L'). rewrite E, E'. f_equal.
    apply nth_ext with (d := []) (d' := []); [congruence|]. intros i I.
    assert (K : nth_error o i = nth_error o' i).
    { eapply (forward_alike n feats edges feats edges' i i V); eauto; [lia|]. apply (alike_map (fun i => i) (fun _ => True)); auto. intros j _. split; auto. rewrite map_id. split; [apply pred_perm; auto|apply Forall_forall; auto]. }
    rewrite (nth_error_nth' o [] I) in K. rewrite (nth_error_nth' o' []) in K by lia. congruence.
  - rewrite !forward_err; auto. intros V'. apply V. unfold valid in *. rewrite Forall_forall in *. intros e He. apply V'. eapply Permutation_in; eauto.
Qed.
Print Assumptions C183_order.
Theorem C183_renumber : forall n g feats feats' edges out, renumbers (List.length feats) g -> List.length feats' = List.length feats ->
  (forall i, (i < List.length feats)%nat -> nth_error feats' (g i) = nth_error feats i) -> forward n feats edges = Ok out ->
  exists out', forward n feats' (map (fun e => (g (fst e), g (snd e))) edges) = Ok out' /\ forall i, (i < List.length feats)%nat -> nth_error out' (g i) = nth_error out i.
Proof.
  intros n g feats feats' edges out [G1 G2] L F E.
  assert (V : valid feats edges).
  { apply Forall_forall. intros e He. unfold forward in E. destruct (forallb _ edges) eqn:B; [|discriminate]. rewrite forallb_forall in B. specialize (B e He). rewrite andb_true_iff, !Nat.ltb_lt in B. auto. }
  assert (V' : valid feats' (map (fun e => (g (fst e), g (snd e))) edges)).
  { unfold valid in *. rewrite Forall_forall in *. intros e He. apply in_map_iff in He as (e0 & <- & He). rewrite L. cbn. destruct (V e0 He). auto. }
  destruct (forward_ok n _ _ V') as (out' & E' & _). exists out'. split; auto. intros i I. symmetry.
  eapply (forward_alike n feats edges feats' _ i (g i) V I); eauto.
  apply (alike_map g (fun j => (j < List.length feats)%nat)); auto. intros j J. split; [symmetry; auto|]. split.
  - rewrite (pred_map g (fun j => (j < List.length feats)%nat)); auto. unfold valid in V. rewrite Forall_forall in *. intros e He. apply V. auto.
  - apply Forall_forall. intros x X. eapply pred_valid; eauto.
Qed.
Print Assumptions C183_renumber.
Theorem C183_batch : forall n feats1 edges1 feats2 edges2 out1 out2, forward n feats1 edges1 = Ok out1 -> forward n feats2 edges2 = Ok out2 ->
  forward n (feats1 ++ feats2) (edges1 ++ map (fun e => (List.length feats1 + fst e, List.length feats1 + snd e)%nat) edges2) = Ok (out1 ++ out2).
Proof.
  intros n f1 e1 f2 e2 o1 o2 E1 E2. set (m := List.length f1). set (g := fun i => (m + i)%nat). set (e2' := map (fun e => (m + fst e, m + snd e)%nat) e2).
  assert (VV : forall fs es o, forward n fs es = Ok o -> valid fs es).
  { intros fs es o E. apply Forall_forall. intros e He. unfold forward in E. destruct (forallb _ es) eqn:B; [|discriminate]. rewrite forallb_forall in B. specialize (B e He). rewrite andb_true_iff, !Nat.ltb_lt in B. auto. }
  pose proof (VV _ _ _ E1) as V1. pose proof (VV _ _ _ E2) as V2.
  assert (V : valid (f1 ++ f2) (e1 ++ e2')).
  { unfold valid in *. rewrite app_length. apply Forall_app. split; [eapply Forall_impl; [|exact V1]; cbn; intros; lia|]. unfold e2'. rewrite Forall_forall in *. intros e He. apply in_map_iff in He as (e0 & <- & He). cbn. specialize (V2 e0 He). fold m. lia. }
  destruct (forward_ok n _ _ V) as (o & E & L). change (forward n (f1 ++ f2) (e1 ++ e2') = Ok (o1 ++ o2)). rewrite E. f_equal. destruct (forward_ok n _ _ V1) as (o1' & E1' & L1). rewrite E1 in E1'. injection E1' as <-. destruct (forward_ok n _ _ V2) as (o2' & E2' & L2). rewrite E2 in E2'. injection E2' as <-.
  rewrite app_length in L.
  assert (K1 : forall i, (i < m)%nat -> nth_error o1 i = nth_error o i).
  { intros i I. eapply (forward_alike n f1 e1 _ _ i i V1 I); eauto. apply (alike_map (fun i => i) (fun j => (j < m)%nat)); auto. intros j J. split; [rewrite nth_error_app1; auto|]. rewrite map_id. split.
    - rewrite pred_app, (pred_none e2'), app_nil_r; auto. intros e He. apply in_map_iff in He as (e0 & <- & _). cbn. lia.
    - apply Forall_forall. intros x X. eapply pred_valid; eauto. }
  assert (K2 : forall i, (i < List.length f2)%nat -> nth_error o2 i = nth_error o (m + i)).
  { intros i I. eapply (forward_alike n f2 e2 _ _ i (g i) V2 I); eauto. apply (alike_map g (fun j => (j < List.length f2)%nat)); auto. intros j J. split; [unfold g; rewrite nth_error_app2 by lia; f_equal; lia|]. split.
    - rewrite pred_app. rewrite (pred_none e1). 2:{ intros e He. unfold valid in V1. rewrite Forall_forall in V1. specialize (V1 e He). fold m in V1. unfold g. lia. } cbn [app].
      unfold e2'. rewrite <- (pred_map g (fun _ => True)); auto; [unfold g; intros; lia|apply Forall_forall; auto].
    - apply Forall_forall. intros x X. eapply pred_valid; eauto. }
  apply nth_ext with (d := []) (d' := []); [rewrite app_length; lia|]. intros i I.
  assert (K : nth_error o i = nth_error (o1 ++ o2) i).
  { destruct (lt_dec i m) as [H|H]; [rewrite nth_error_app1 by lia; symmetry; auto|]. rewrite nth_error_app2 by lia. rewrite L1. fold m. rewrite (K2 (i - m)%nat) by lia. f_equal. lia. }
  rewrite (nth_error_nth' o [] I) in K. rewrite (nth_error_nth' (o1 ++ o2) []) in K by (rewrite app_length; lia). congruence.
Qed.
Print Assumptions C183_batch.

(** C184: the scores of a node depend only on the features of the nodes from which it can be reached along at most
    as many edges as there are convolutions. *)
Theorem C184_field : forall n feats feats' edges i out out', List.length feats = List.length feats' -> (i < List.length feats)%nat ->
  (forall h, reaches edges (List.length (w_convs n)) h i -> nth_error feats h = nth_error feats' h) ->
  forward n feats edges = Ok out -> forward n feats' edges = Ok out' -> nth_error out i = nth_error out' i.
Proof.
  intros n feats feats' edges i out out' L I H E E'.
  assert (IN : forall j x, In x (predecessors edges j) -> In (x, j) edges).
  { intros j x X. unfold predecessors in X. apply in_flat_map in X as (e & He & X). destruct (Nat.eq_dec (snd e) j) as [<-|]; [|destruct X]. destruct X as [<-|[]]. destruct e; auto. }
  assert (TR : forall k h j, reaches edges k h j -> forall i', In (j, i') edges -> reaches edges (S k) h i').
  { induction 1 as [k j|k h h' j He R IH]; intros i' Hi; [eapply reaches_step; eauto; constructor|eapply reaches_step; [exact He|apply IH; auto]]. }
  assert (A : forall k j, (forall h, reaches edges k h j -> nth_error feats h = nth_error feats' h) -> alike k feats edges feats' edges j j).
  { induction k as [|k IH]; intros j Hj; (split; [apply Hj; constructor|]); auto. exists (predecessors edges j). split; auto. rewrite <- (map_id (predecessors edges j)) at 2. apply F2_map_r. intros x X. apply IH. intros h R. apply Hj. apply IN in X. eapply TR; eauto. }
  apply (proj2 (proj2 (C182_alike n)) feats edges feats' edges i i out out'); auto.
Qed.
Print Assumptions C184_field.

(** A network with one convolution on a path 0 -> 1 -> 2 -> 3: nodes 1 and 2 look alike from distance 1 though not
    from distance 2. *)
Open Scope R_scope.
Definition n182 : network := {| w_alpha := 1 / 2; w_hidden := 1; w_in := {| l_weight := [[1]]; l_bias := [0] |}; w_out := {| l_weight := [[1]; [2]]; l_bias := [0; 0] |};
  w_convs := [{| c_beta := 1; c_w1 := [[1]]; c_w2 := Some [[1]] |}] |}.
Definition f182 : list vec := [[1]; [1]; [1]; [3]].
Definition e182 : list (nat * nat) := [(0, 1); (1, 2); (2, 3)]%nat.
Example C182_case : valid f182 e182 /\ alike (List.length (w_convs n182)) f182 e182 f182 e182 1 2 /\ ~ alike 2 f182 e182 f182 e182 1 2.
Proof.
  split; [repeat (constructor; [cbn; lia|]); constructor|]. split.
  - split; [reflexivity|]. exists [1%nat]. split; [apply Permutation_refl|]. constructor; [|constructor]. split; [reflexivity|auto].
  - intros [_ (l & P & F)]. cbn in P, F. apply Permutation_sym, Permutation_length_1_inv in P. subst. inversion F as [|? ? ? ? A _]; subst. destruct A as [_ (l & P & G)]. cbn in P, G. inversion G; subst. apply Permutation_nil in P. discriminate.
Qed.
Example C184_case : reaches e182 2 0 2 /\ (forall h, reaches e182 1 h 3 -> h = 2%nat \/ h = 3%nat).
Proof.
  split; [apply reaches_step with 1%nat; [cbn; auto|apply reaches_step with 2%nat; [cbn; auto|constructor]]|].
  intros h R. inversion R as [|k h0 j i E R']; subst; auto. inversion R'; subst. cbn in E. destruct E as [E|[E|[E|[]]]]; try discriminate; injection E as <-; auto.
Qed.
(** Its scores: node 2 gets 1/2 * 1 + 1/2 * 1 + 1 = 2, and twice that. *)
Example C182_scores : exists out, forward n182 f182 e182 = Ok out /\ nth_error out 2 = Some [2; 4].
Proof.
  eexists. split; [reflexivity|]. cbn. rewrite !(Rmax_right 0 (1 * 1 + 0 + 0)) by lra. rewrite !(Rmax_right 0) by lra. f_equal. f_equal; [lra|f_equal; lra].
Qed.

(** C185: entry by entry the convolution is its documented formula, with P the adjacency matrix of incoming edges
    (no self-loops, no normalisation): ((1 - alpha) P X + alpha X0) ((1 - beta) I + beta W1) with shared weights,
    (1 - alpha) P X ((1 - beta) I + beta W1) + alpha X0 ((1 - beta) I + beta W2) without. *)
Theorem C185_formula : forall c alpha beta w1 w2 edges x x0 n i d, matrix n c x -> matrix n c x0 -> valid x edges -> (i < n)%nat -> matrix c c w1 -> matrix c c w2 ->
  entry (conv_forward c alpha {| c_beta := beta; c_w1 := w1; c_w2 := None |} edges x x0) i d =
    mixed c beta (fun i d => (1 - alpha) * spread edges x i d + alpha * entry x0 i d) w1 i d /\
  entry (conv_forward c alpha {| c_beta := beta; c_w1 := w1; c_w2 := Some w2 |} edges x x0) i d =
    mixed c beta (fun i d => (1 - alpha) * spread edges x i d) w1 i d + mixed c beta (fun i d => alpha * entry x0 i d) w2 i d.
Proof.
  intros c alpha beta w1 w2 edges x x0 n i d X X0 V I W1 W2. split.
  - rewrite (conv_nth c alpha _ edges x x0 n i d X X0 V I); auto. cbn. discriminate.
  - rewrite (conv_nth c alpha _ edges x x0 n i d X X0 V I); auto. cbn. intros w E. injection E as <-. auto.
Qed.
Print Assumptions C185_formula.
Example C185_case : matrix 4 1 f182 /\ valid f182 e182 /\ entry (conv_forward 1 (1 / 4) {| c_beta := 1 / 3; c_w1 := [[5]]; c_w2 := None |} e182 f182 f182) 3 0 = (1 - 1 / 3) * (3 / 2) + 1 / 3 * (3 / 2 * 5).
Proof.
  split; [split; [reflexivity|repeat constructor]|]. split; [repeat (constructor; [cbn; lia|]); constructor|]. cbn. lra.
Qed.

(** C185: ... and the scores of the network are those of the documented composition: linear layer and cut at 0,
    then for each convolution its value plus what it was given, cut at 0, then the last linear layer. *)
Theorem C185_network : forall n f o N feats edges, fits n f o -> matrix N f feats -> valid feats edges ->
  exists out, forward n feats edges = Ok out /\ matrix N o out /\ forall i d, (i < N)%nat -> (d < o)%nat -> entry out i d = scores n f feats edges i d.
Proof.
  intros n f o N feats edges F M V. destruct (forward_ok n feats edges V) as (out & E & _). exists out. split; auto. eapply scores_ok; eauto.
Qed.
Print Assumptions C185_network.
Example C185_fits : fits n182 1 2.
Proof.
  split; [split; [split; [reflexivity|repeat constructor]|reflexivity]|]. split; [split; [split; [reflexivity|repeat constructor]|reflexivity]|].
  constructor; [|constructor]. split; [split; [reflexivity|repeat constructor]|]. cbn. intros w E. injection E as <-. split; [reflexivity|repeat constructor].
Qed.
