(** Property C193: the statistics of a processed dataset.
    [process s n1 n2 ins k] is MidiDataset.process with the options [s] on the disk [k]; [compute_statistics c] gives
    nodes, edges and labels of the dataset with the content [c]. *)
From Coq Require Import Permutation Lia.
From Verif Require Import PyBase L_Base L_Note M_Note M_Events M_Seq S_Seq M_Chord M_Graph S_Graph L_Graph L_Graph2 M_Dataset S_Dataset L_Dataset2 M_Checker S_Checker L_Checker2 M_Stats S_Stats P_Graph P_Dataset.
Open Scope Z_scope.

Lemma enough_edges : forall g, NoDup (nodes_of g) -> edges_between g -> all_entered g -> (List.length (nodes_of g) <= List.length (edge_index g))%nat.
Proof.
  intros g ND EB AE. unfold edge_index. rewrite map_length. set (ts := map (fun e => snd (fst e)) (out_edges g)).
  assert (L : List.length ts = List.length (out_edges g)) by (unfold ts; apply map_length). rewrite <- L. apply NoDup_incl_length; [exact ND|]. intros h H.
  assert (E : exists a, In a (nodes_of g) /\ edge g a h) by (destruct (AE h H) as [W|[a [NE E]]]; [exists h; split; [exact H|apply weight_pos_edge, W]|exists a; split; [apply (EB a h NE E)|exact E]]).
  destruct E as [a [IA E]]. apply edge_entered in E. unfold entered in E. apply in_map_iff in E as [[[a' h'] w] [EQ IE]]. cbn in EQ. injection EQ as -> ->.
  unfold ts. apply in_map_iff. exists ((a, h), w). split; [reflexivity|]. unfold out_edges. apply in_flat_map. unfold nodes_of in IA. apply in_map_iff in IA as [n [NA NI]]. exists n. split; [exact NI|].
  apply filter_In. split; [exact IE|]. cbn. apply Z.eqb_eq. congruence.
Qed.
Lemma distinct_indices : forall (h2i : list (Z * Z)) hs is, (forall h h' i, dict_get Z.eqb h h2i = Some i -> dict_get Z.eqb h' h2i = Some i -> h = h') -> NoDup hs ->
  Forall2 (fun h i => dict_get Z.eqb h h2i = Some i) hs is -> NoDup is.
Proof.
  intros h2i hs is INJ ND F. induction F as [|h i hs is H F IH]; [constructor|]. inversion ND as [|? ? N1 N2]; subst. constructor; [|auto].
  intros I. apply N1. clear - INJ H F I. induction F as [|h' i' hs is H' _ IH]; [destruct I|]. destruct I as [->|I]; [left; eapply INJ; eauto|right; auto].
Qed.
Lemma graph_counts : forall s h2i paths ps p, (forall h h' i, dict_get Z.eqb h h2i = Some i -> dict_get Z.eqb h' h2i = Some i -> h = h') -> s_skip_label s = false -> file_graphs s h2i paths ps -> In p ps ->
  exists is, p_label p = Some is /\ List.length (nodup Z.eq_dec is) = List.length (nodes_of (p_graph p)) /\ (List.length (nodes_of (p_graph p)) <= List.length (edge_index (p_graph p)))%nat.
Proof.
  intros s h2i paths ps p INJ SK F. induction F as [|path r ps R F IH|path r seqs ps R S0 F IH|path r seqs q ps R (t & ts & is & ST & (ws & NE & CH & GO) & IX & Y & LB) F IH]; intros I; auto; [destruct I|].
  destruct I as [->|I]; [|auto]. rewrite SK in LB. exists is. split; [exact LB|].
  assert (ND : NoDup (nodes_of (p_graph p))) by (destruct GO as [-> _]; apply first_seen_NoDup).
  split; [|apply enough_edges; [exact ND| |]; destruct ws as [|w ws]; try congruence; apply (walk_entered _ _ _ GO)].
  rewrite nodup_fixed_point by (eapply distinct_indices; eauto). symmetry. clear - IX. induction IX; cbn; congruence.
Qed.
Lemma statistics_sum : forall l a b d, (forall i, In i l -> exists ls, p_label (i_pyg i) = Some ls /\ List.length (nodup Z.eq_dec ls) = nodes_in i /\ (nodes_in i <= List.length (edge_index (p_graph (i_pyg i))))%nat) ->
  exists m, total nodes_in l <= m /\ m = total (fun i => List.length (edge_index (p_graph (i_pyg i)))) l /\ statistics a b d l = Ok (a + total nodes_in l, b + m, d + total nodes_in l).
Proof.
  unfold total. induction l as [|i l IH]; intros a b d H; cbn [map list_sum fold_right statistics].
  - exists 0. split; [cbn; lia|]. split; [reflexivity|]. cbn. rewrite !Z.add_0_r. reflexivity.
  - destruct (H i ltac:(left; auto)) as (ls & LB & NL & LE). rewrite LB.
    destruct (IH (a + Z.of_nat (num_nodes (i_pyg i))) (b + Z.of_nat (List.length (edge_index (p_graph (i_pyg i))))) (d + Z.of_nat (List.length (nodup Z.eq_dec ls))) ltac:(intros; apply H; right; auto)) as (m & M1 & M2 & ->).
    exists (Z.of_nat (List.length (edge_index (p_graph (i_pyg i)))) + m). cbn [list_sum map] in *. split; [unfold list_sum in *; cbn [fold_right]; lia|]. split; [unfold list_sum in *; cbn [fold_right]; lia|].
    assert (NN : num_nodes (i_pyg i) = nodes_in i) by (unfold num_nodes, nodes_in, nodes_of; rewrite map_length; reflexivity). rewrite NL, NN. unfold list_sum in *. cbn [fold_right]. f_equal. f_equal; [f_equal|]; lia.
Qed.
(** C193: a processed dataset with labels, without pre-transform, reports as many labels as nodes - every graph is
    counted for itself, so a chord of several files counts several times - and at least as many edges. *)
Theorem C193_statistics : forall s n1 n2 ins k c ks, n1 <> n2 -> processed_file_exists k n1 n2 = false -> process s n1 n2 ins k = (Ok c, ks) ->
  env_ok (s_env s) -> s_sanity s = false -> (forall g, s_conv s g <> Some KeyError) -> s_skip_label s = false -> s_pre s = None ->
  exists m, compute_statistics c = Ok (total nodes_in (f_graphs c), m, total nodes_in (f_graphs c)) /\ total nodes_in (f_graphs c) <= m /\
    m = total (fun i => List.length (edge_index (p_graph (i_pyg i)))) (f_graphs c).
Proof.
  intros s n1 n2 ins k c ks N P H EO SA CV SK PR. destruct (process_contents s n1 n2 ins k c ks N P H EO SA CV) as [(ps & kept & FG & SE & ST & _) (hs & _ & _ & HI & _)].
  assert (INJ : forall h h' i, dict_get Z.eqb h (f_h2i c) = Some i -> dict_get Z.eqb h' (f_h2i c) = Some i -> h = h') by (intros h h' i A B; apply HI in A as [_ A]; apply HI in B as [_ B]; congruence).
  destruct (statistics_sum (f_graphs c) 0 0 0) as (m & M1 & M2 & M3).
  - intros i I. assert (X : exists p, In p ps /\ i_pyg i = p).
    { assert (KP : forall p, In p kept -> In p ps) by (clear - SE; induction SE as [|x l k' _ _ IH|x l k' _ _ IH]; intros p I; [destruct I|destruct I as [->|I]; [left; auto|right; auto]|right; auto]).
      clear - ST I KP PR. induction ST as [|p j kept l (mm & kk & _ & E) _ IH]; [destruct I|]. destruct I as [->|I]; [|apply IH; [exact I|intros; apply KP; right; auto]].
      rewrite PR in E. exists p. split; [apply KP; left; auto|]. rewrite E. reflexivity. }
    destruct X as (p & IP & <-). destruct (graph_counts s (f_h2i c) (s_paths s) ps _ INJ SK FG IP) as (is & A1 & A2 & A3). exists is. unfold nodes_in. auto.
  - exists m. unfold compute_statistics. rewrite M3. auto.
Qed.
Print Assumptions C193_statistics.
(** C193: without labels it raises. *)
Theorem C193_no_labels : forall s n1 n2 ins k c ks, n1 <> n2 -> processed_file_exists k n1 n2 = false -> process s n1 n2 ins k = (Ok c, ks) ->
  env_ok (s_env s) -> s_sanity s = false -> (forall g, s_conv s g <> Some KeyError) -> s_skip_label s = true -> s_pre s = None -> compute_statistics c = Err TypeError.
Proof.
  intros s n1 n2 ins k c ks N P H EO SA CV SK PR. destruct (process_contents s n1 n2 ins k c ks N P H EO SA CV) as [(ps & kept & FG & SE & ST & NE) _].
  unfold compute_statistics. destruct ST as [|p j kept l (mm & kk & _ & E) _]; [congruence|]. rewrite PR in E. cbn [statistics].
  assert (L : p_label p = None).
  { assert (IP : In p ps). { assert (KP : forall q, In q (p :: kept) -> In q ps) by (clear - SE; induction SE as [|x l k' _ _ IH|x l k' _ _ IH]; intros q I; [destruct I|destruct I as [->|I]; [left; auto|right; auto]|right; auto]). apply KP. left; auto. }
    clear - FG IP SK. induction FG as [|path r ps R F IH|path r seqs ps R S0 F IH|path r seqs q ps R (t & ts & is & _ & _ & _ & _ & LB) F IH]; auto; [destruct IP|]. destruct IP as [->|I]; [|auto]. rewrite SK in LB. exact LB. }
  rewrite E. cbn [i_pyg]. rewrite L. reflexivity.
Qed.
Print Assumptions C193_no_labels.
(** Two files, one chord graph of three nodes each. *)
Example C193_case : match fst (process st_ex n_i n_e true []) with
  | Ok c => compute_statistics c = Ok (6, 7, 6) /\ total_num_classes c = 6 | _ => False end.
Proof. vm_compute. auto. Qed.
