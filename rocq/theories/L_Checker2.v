(** Every node of a graph of a walk is entered by an edge. *)
From Coq Require Import Sorted Permutation Lia.
From Verif Require Import PyBase L_Base M_Note M_Events M_Seq S_Seq M_Chord M_Graph S_Graph L_Chord L_Graph L_Graph2 M_Checker S_Checker.
Open Scope Z_scope.

Lemma step_in : forall w a b, In (a, b) (steps w) -> In a w /\ In b w.
Proof.
  unfold steps. intros w a b H. split; [eapply in_combine_l; eauto|]. apply in_combine_r in H. destruct w; [destruct H|right; exact H].
Qed.
Lemma steps_app : forall u a b v, steps (u ++ a :: b :: v) = steps (u ++ [a]) ++ (a, b) :: steps (b :: v).
Proof.
  induction u as [|x u IH]; intros a b v; [reflexivity|]. destruct u as [|y u].
  - reflexivity.
  - change (steps ((x :: y :: u) ++ a :: b :: v)) with ((x, y) :: steps ((y :: u) ++ a :: b :: v)). rewrite IH. reflexivity.
Qed.
(** An element other than the first is first reached by a step. *)
Lemma reached : forall f w h, In h w -> h <> f -> exists a, a <> h /\ first_step a h (f :: w) /\ In a (f :: w).
Proof.
  intros f w h H NE. assert (S0 : exists u v, w = u ++ h :: v /\ ~ In h u).
  { clear NE. induction w as [|x w IH]; [destruct H|]. destruct (Z.eq_dec x h) as [->|NX]; [exists [], w; auto|]. destruct H as [H|H]; [congruence|].
    destruct (IH H) as (u & v & -> & N). exists (x :: u), v. split; [reflexivity|]. intros [X|X]; auto. }
  destruct S0 as (u & v & -> & N). assert (L : exists u0 a, f :: u = u0 ++ [a] /\ a <> h).
  { destruct u as [|x u]; [exists [], f; auto|]. destruct (exists_last (l := x :: u)) as [u1 [a E]]; [discriminate|]. exists (f :: u1), a. rewrite E. split; [reflexivity|]. intros ->. apply N. rewrite E. apply in_or_app. right; left; auto. }
  destruct L as (u0 & a & E & NA). exists a. split; [exact NA|].
  assert (W : f :: u ++ h :: v = u0 ++ a :: h :: v) by (change (f :: u ++ h :: v) with ((f :: u) ++ h :: v); rewrite E, <- app_assoc; reflexivity).
  split; [|rewrite W; apply in_or_app; right; left; auto]. exists (steps (u0 ++ [a])), (steps (h :: v)). split; [rewrite W; apply steps_app|]. rewrite <- E.
  assert (X : forall x y, In (x, y) (steps (f :: u)) -> x <> h /\ y <> h) by (intros x y I; apply step_in in I as [I1 I2]; split; intros ->; [destruct I1 as [I1|I1]|destruct I2 as [I2|I2]]; auto).
  split; intros I; apply X in I as [I1 I2]; congruence.
Qed.
Lemma edge_entered : forall g a b, edge g a b -> entered g a b.
Proof.
  intros g a b [w H]. unfold entered. unfold edge_weight in H. induction (g_edges g) as [|[[x y] v] l IH]; [discriminate|]. cbn in *.
  unfold edge_eqb in *. cbn in *. destruct ((x =? a) && (y =? b)) eqn:E; [left; apply andb_true_iff in E as [E1 E2]; apply Z.eqb_eq in E1, E2; congruence|right; apply IH; exact H].
Qed.
Definition edges_between (g : digraph) : Prop := forall a b, a <> b -> edge g a b -> In a (nodes_of g) /\ In b (nodes_of g).
Definition all_entered (g : digraph) : Prop := forall h, In h (nodes_of g) -> 1 <= weight g h h \/ exists a, a <> h /\ edge g a h.
Lemma first_step_in : forall a b w, first_step a b w -> In a w /\ In b w.
Proof. intros a b w (l1 & l2 & E & _). apply step_in. rewrite E. apply in_or_app. right; left; auto. Qed.
Lemma walk_entered : forall f w g, graph_of (f :: w) g -> edges_between g /\ all_entered g.
Proof.
  intros f w g (N & _ & E & W). split.
  - intros a b NE H. apply (E a b NE) in H. apply first_step_in in H as [H1 H2]. rewrite N. split; apply first_seen_In; auto.
  - intros h H. rewrite N in H. apply (proj1 (first_seen_In _ _)) in H. destruct (Z.eq_dec h f) as [->|NE].
    + left. rewrite W, Z.eqb_refl. pose proof (times_nonneg f f (f :: w)). lia.
    + destruct H as [H|H]; [congruence|]. destruct (reached f w h H NE) as (a & A1 & A2 & _). right. exists a. split; [exact A1|]. apply (E a h A1). exact A2.
Qed.
Lemma extends_entered : forall g p w g', In p (nodes_of g) -> extends g (p :: w) g' -> edges_between g -> all_entered g -> edges_between g' /\ all_entered g'.
Proof.
  intros g p w g' IP (N & _ & E & W) EB AE. split.
  - intros a b NE H. apply (E a b NE) in H. rewrite N. destruct H as [H|[_ H]].
    + apply (EB a b NE) in H as [H1 H2]. split; apply first_seen_In, in_or_app; auto.
    + apply first_step_in in H as [H1 H2]. split; apply first_seen_In, in_or_app; auto.
  - intros h H. destruct (in_dec Z.eq_dec h (nodes_of g)) as [I|I].
    + destruct (AE h I) as [A|[a [NE A]]]; [left; rewrite W; pose proof (times_nonneg h h (p :: w)); lia|]. right. exists a. split; [exact NE|]. apply (E a h NE). auto.
    + rewrite N in H. apply (proj1 (first_seen_In _ _)), in_app_or in H as [H|H]; [contradiction|]. assert (NE : h <> p) by congruence. destruct H as [H|H]; [congruence|].
      destruct (reached p w h H NE) as (a & A1 & A2 & _). right. exists a. split; [exact A1|]. apply (E a h A1). right. split; [|exact A2]. intros X. apply I. apply (EB h a ltac:(congruence) X).
Qed.
Lemma tracks_entered : forall e c ts g, graph_of_tracks e c ts g -> edges_between g /\ all_entered g.
Proof.
  intros e c ts g H. induction H as [s g (ws & NE & _ & G)|l s g ns p ws g' _ [EB AE] NP _ _ X].
  - destruct ws as [|w ws]; [congruence|]. apply (walk_entered _ _ _ G).
  - apply (extends_entered g p (map (e_shash e) ws) g'); auto. rewrite NP. apply in_or_app. right; left; auto.
Qed.
Lemma entered_all : forall g, all_entered g -> forall h, In h (nodes_of g) -> exists a, entered g a h.
Proof.
  intros g AE h H. destruct (AE h H) as [W|[a [_ E]]]; [exists h; apply edge_entered, weight_pos_edge, W|exists a; apply edge_entered, E].
Qed.
Lemma edges_at_least : forall g, graph_ok g -> (forall h, In h (nodes_of g) -> exists a, entered g a h) ->
  (List.length (nodes_of g) <= List.length (g_edges g))%nat /\
  (List.length (nodes_of g) = List.length (g_edges g) <-> forall h a b, entered g a h -> entered g b h -> a = b).
Proof.
  intros g (ND & NE & GE & _) H. set (ts := map snd (map fst (g_edges g))).
  assert (LT : List.length ts = List.length (g_edges g)) by (unfold ts; rewrite !map_length; reflexivity).
  assert (IN : incl (nodes_of g) ts) by (intros h I; destruct (H h I) as [a A]; unfold ts; apply in_map_iff; exists (a, h); split; [reflexivity|exact A]).
  pose proof (NoDup_incl_length ND IN) as LE. split; [lia|]. unfold entered. split.
  - intros E h a b A B. assert (NT : NoDup ts) by (apply (NoDup_incl_NoDup ND); [lia|exact IN]).
    unfold ts in NT. clear - NT A B. induction (map fst (g_edges g)) as [|[x y] l IH]; [destruct A|]. cbn in NT. inversion NT as [|? ? N1 N2]; subst.
    assert (Q : forall z, In (z, h) l -> y <> h) by (intros z I X; apply N1; rewrite X; apply in_map_iff; exists (z, h); auto).
    destruct A as [A|A], B as [B|B]; [congruence|injection A as _ A; destruct (Q _ B A)|injection B as _ B; destruct (Q _ A B)|auto].
  - intros U. assert (NT : NoDup ts).
    { unfold ts. clear - U NE. revert NE U. induction (map fst (g_edges g)) as [|[x y] l IH]; intros NE U; cbn; [constructor|]. inversion NE as [|? ? N1 N2]; subst. constructor.
      - intros I. apply in_map_iff in I as [[z w] [E I]]. cbn in E. subst w. assert (z = x) by (apply (U y); [right; exact I|left; auto]). subst z. contradiction.
      - apply IH; [exact N2|]. intros h a b A B. apply (U h); right; assumption. }
    assert (IT : incl ts (nodes_of g)) by (intros h I; unfold ts in I; apply in_map_iff in I as [[a b] [<- I]]; apply in_map_iff in I as [[[a' b'] w] [E I]]; cbn in E; injection E as -> ->; apply (GE a b w I)).
    pose proof (NoDup_incl_length NT IT). lia.
Qed.
