(** Lemmas for the traversal of a weighted graph. *)
From Coq Require Import Lia Lqa Sorted Permutation.
From Verif Require Import PyBase L_Base M_Traverse S_Traverse.
Open Scope Z_scope.

Lemma pop_perm : forall l x m k, pop_least x l = (m, k) -> Permutation (x :: l) (m :: k).
Proof.
  induction l as [|y r IH]; intros x m k H; cbn in H; [injection H as <- <-; auto|].
  destruct (item_lt y x).
  - destruct (pop_least y r) as [m' k'] eqn:E. injection H as <- <-. apply IH in E. rewrite E. apply perm_swap.
  - destruct (pop_least x r) as [m' k'] eqn:E. injection H as <- <-. apply IH in E. rewrite perm_swap, E. apply perm_swap.
Qed.
Lemma item_lt_dist : forall x y, item_lt x y = true -> (fst x <= fst y)%Q.
Proof. intros x y H. unfold item_lt in H. destruct (Qeq_bool (fst x) (fst y)) eqn:E; [apply Qeq_bool_iff in E; lra|]. apply Qltb_lt in H. lra. Qed.
Lemma item_ge_dist : forall x y, item_lt x y = false -> (fst y <= fst x)%Q.
Proof. intros x y H. unfold item_lt in H. destruct (Qeq_bool (fst x) (fst y)) eqn:E; [apply Qeq_bool_iff in E; lra|]. apply Qltb_ge in H. lra. Qed.
Lemma pop_min : forall l x m k, pop_least x l = (m, k) -> forall y, In y (x :: l) -> (fst m <= fst y)%Q.
Proof.
  induction l as [|z r IH]; intros x m k H y Y; cbn in H; [injection H as <- <-; destruct Y as [<-|[]]; lra|].
  destruct (item_lt z x) eqn:L.
  - destruct (pop_least z r) as [m' k'] eqn:E. injection H as <- <-. apply item_lt_dist in L. pose proof (IH _ _ _ E z (or_introl eq_refl)). destruct Y as [<-|Y]; [lra|]. exact (IH _ _ _ E y Y).
  - destruct (pop_least x r) as [m' k'] eqn:E. injection H as <- <-. apply item_ge_dist in L. pose proof (IH _ _ _ E x (or_introl eq_refl)). destruct Y as [<-|[<-|Y]]; try lra. exact (IH _ _ _ E y (or_intror Y)).
Qed.
Lemma existsb_in : forall v l, existsb (Z.eqb v) l = true <-> In v l.
Proof. intros v l. rewrite existsb_exists. split; [intros [x [X E]]; apply Z.eqb_eq in E; subst; auto|intros H; exists v; split; auto; apply Z.eqb_refl]. Qed.
Lemma first_edge_spec : forall edges u v i, first_edge edges u v = Some i -> nth_error edges i = Some (u, v) /\ forall j, (j < i)%nat -> nth_error edges j <> Some (u, v).
Proof.
  induction edges as [|[a b] r IH]; intros u v i H; cbn in H; [discriminate|]. destruct ((a =? u) && (b =? v)) eqn:E.
  - injection H as <-. apply andb_prop in E as [E1 E2]. apply Z.eqb_eq in E1, E2. subst. split; auto. intros j J. lia.
  - destruct (first_edge r u v) as [k|] eqn:F; [|discriminate]. cbn in H. injection H as <-. destruct (IH _ _ _ F) as [A B]. split; auto. intros [|j] J; cbn; [|apply B; lia].
    intros X. injection X as -> ->. rewrite !Z.eqb_refl in E. discriminate.
Qed.
Lemma first_edge_some : forall edges u v, In (u, v) edges -> exists i, first_edge edges u v = Some i /\ (i < List.length edges)%nat.
Proof.
  induction edges as [|[a b] r IH]; intros u v H; [destruct H|]. cbn. destruct ((a =? u) && (b =? v)) eqn:E; [exists 0%nat; split; [auto|lia]|].
  destruct H as [H|H]; [injection H as -> ->; rewrite !Z.eqb_refl in E; discriminate|]. destruct (IH _ _ H) as [i [I L]]. rewrite I. exists (Datatypes.S i). split; [auto|lia].
Qed.
Lemma weight_fun : forall edges attr u v w w', weight edges attr u v w -> weight edges attr u v w' -> w = w'.
Proof.
  intros edges attr u v w w' (i & A & B & C) (j & A' & B' & C'). destruct (Nat.lt_trichotomy i j) as [L|[L|L]]; [exfalso; apply (C' i L A)| |exfalso; apply (C j L A')]. subst. congruence.
Qed.
Lemma weight_edge : forall edges attr u v w, weight edges attr u v w -> In (u, v) edges.
Proof. intros edges attr u v w (i & A & _). eapply nth_error_In; eauto. Qed.

Section GRAPH.
Variables (edges : list (Z * Z)) (attr : list Q).
Hypothesis AT : (List.length edges <= List.length attr)%nat.

Lemma weight_some : forall u v, In (u, v) edges -> exists w i, first_edge edges u v = Some i /\ nth_error attr i = Some w /\ weight edges attr u v w.
Proof.
  intros u v H. destruct (first_edge_some _ _ _ H) as [i [I L]]. destruct (nth_error attr i) as [w|] eqn:E; [|apply nth_error_None in E; lia].
  exists w, i. split; auto. split; auto. destruct (first_edge_spec _ _ _ _ I) as [A B]. exists i. auto.
Qed.
Lemma neighbors_in : forall u v, In v (neighbors edges u) <-> In (u, v) edges.
Proof.
  intros u v. unfold neighbors. rewrite in_map_iff. split.
  - intros [[a b] [E I]]. apply filter_In in I as [I J]. cbn in *. apply Z.eqb_eq in J. subst. auto.
  - intros H. exists (u, v). split; auto. apply filter_In. split; auto. cbn. apply Z.eqb_refl.
Qed.
(** What one expansion adds to the queue. *)
Lemma push_spec : forall visited dist node ns pq, (forall v, In v ns -> In (node, v) edges) ->
  exists new, push_all edges attr visited dist node ns pq = Ok (new ++ pq) /\ (List.length new <= List.length ns)%nat /\
    (forall x, In x new -> exists w, fst x = (dist + w)%Q /\ weight edges attr node (snd x) w) /\
    (forall v, In v ns -> ~ In v visited -> exists w, weight edges attr node v w /\ In (dist + w, v)%Q new).
Proof.
  intros visited dist node ns. induction ns as [|v ns IH]; intros pq H; cbn [push_all].
  - exists []. split; auto. split; [cbn; lia|]. split; intros ? [].
  - assert (H' : forall u, In u ns -> In (node, u) edges) by (intros; apply H; right; auto). destruct (existsb (Z.eqb v) visited) eqn:E.
    + apply existsb_in in E. destruct (IH pq H') as (new & A & B & C & D). exists new. split; auto. split; [cbn; lia|]. split; auto. intros u [<-|U] N; [contradiction|auto].
    + destruct (weight_some node v (H v (or_introl eq_refl))) as (w & i & F & N & W). rewrite F, N. destruct (IH ((dist + w, v)%Q :: pq) H') as (new & A & B & C & D).
      exists (new ++ [(dist + w, v)%Q]). rewrite <- app_assoc. split; auto. split; [rewrite app_length; cbn; lia|]. split.
      * intros x X. apply in_app_iff in X as [X|[<-|[]]]; auto. exists w. auto.
      * intros u [<-|U] NV; [exists w; split; auto; apply in_app_iff; right; left; auto|]. destruct (D u U NV) as (w' & W1 & W2). exists w'. split; auto. apply in_app_iff; auto.
Qed.
Lemma walk_reach : forall s v d, walk edges attr s v d -> reach edges s v.
Proof. intros s v d H. induction H; [constructor|]. econstructor; eauto. eapply weight_edge; eauto. Qed.

(** The number of edges that leave nodes not expanded yet. *)
Definition left_over (nodes : list Z) : nat := List.length (filter (fun e => negb (existsb (Z.eqb (fst e)) nodes)) edges).
Lemma left_over_add : forall nodes u, ~ In u nodes -> (left_over (nodes ++ [u]) + List.length (neighbors edges u) = left_over nodes)%nat.
Proof.
  intros nodes u N. unfold left_over, neighbors. rewrite map_length. clear AT. induction edges as [|e r IH]; cbn [filter]; auto. rewrite existsb_app. cbn [existsb]. rewrite orb_false_r.
  destruct (existsb (Z.eqb (fst e)) nodes) eqn:E; cbn [orb negb].
  - destruct (Z.eqb_spec (fst e) u) as [X|X]; [rewrite X in E; apply existsb_in in E; contradiction|]. cbn. lia.
  - destruct (Z.eqb_spec (fst e) u) as [X|X]; cbn [negb List.length]; lia.
Qed.

(** The state of the loop: [vs] are the visited nodes with their distances. *)
Definition inv (s : Z) (vs : list (Z * Q)) (pq : list (Q * Z)) : Prop :=
  NoDup (map fst vs) /\
  (forall x, In x vs -> walk edges attr s (fst x) (snd x)) /\
  (forall x, In x pq -> walk edges attr s (snd x) (fst x)) /\
  (forall x v w, In x vs -> weight edges attr (fst x) v w -> In v (map fst vs) \/ In (snd x + w, v)%Q pq) /\
  ((vs = [] /\ pq = [(0, s)]%Q) \/ In s (map fst vs)).
Definition nonneg : Prop := forall u v w, weight edges attr u v w -> (0 <= w)%Q.
Definition shortest (s : Z) (vs : list (Z * Q)) (pq : list (Q * Z)) : Prop :=
  StronglySorted (fun a b => (snd a <= snd b)%Q) vs /\ (forall x y, In x vs -> In y pq -> (snd x <= fst y)%Q) /\
  (forall x d, In x vs -> walk edges attr s (fst x) d -> (snd x <= d)%Q).
Lemma sorted_snoc : forall A (R : A -> A -> Prop) l x, StronglySorted R l -> (forall y, In y l -> R y x) -> StronglySorted R (l ++ [x]).
Proof.
  intros A R l x H F. induction H as [|y l H IH G]; cbn; [repeat constructor|]. constructor; [apply IH; intros; apply F; right; auto|]. apply Forall_forall. intros z Z. rewrite Forall_forall in G.
  apply in_app_iff in Z as [Z|[<-|[]]]; auto. apply F. left; auto.
Qed.
Lemma nodup_snoc : forall (l : list Z) x, NoDup l -> ~ In x l -> NoDup (l ++ [x]).
Proof. intros l x H N. apply NoDup_rev in H. rewrite <- (rev_involutive (l ++ [x])). apply NoDup_rev. rewrite rev_app_distr. cbn. constructor; auto. rewrite <- in_rev. auto. Qed.
Lemma crossing : forall s vs pq, nonneg -> inv s vs pq -> shortest s vs pq -> forall v d, walk edges attr s v d -> ~ In v (map fst vs) -> exists y, In y pq /\ (fst y <= d)%Q.
Proof.
  intros s vs pq NN (I1 & I2 & I3 & I4 & I5) (H1 & H2 & H3) v d W. induction W as [|u v d w W IH E]; intros N.
  - destruct I5 as [[-> ->]|I5]; [|contradiction]. exists (0, s)%Q. split; [left; auto|cbn; lra].
  - pose proof (NN _ _ _ E). destruct (in_dec Z.eq_dec u (map fst vs)) as [U|U].
    + apply in_map_iff in U as [x [X1 X2]]. subst u. destruct (I4 x v w X2 E) as [V|V]; [contradiction|]. eexists. split; [exact V|]. cbn. pose proof (H3 x d X2 W). lra.
    + destruct (IH U) as [y [Y1 Y2]]. exists y. split; auto. lra.
Qed.
(** Ties. *)
Definition positive : Prop := forall u v w, weight edges attr u v w -> (0 < w)%Q.
Definition lex (a b : Z * Q) : Prop := (snd a < snd b)%Q \/ (snd a == snd b)%Q /\ fst a <= fst b.
Definition tied (vs : list (Z * Q)) (pq : list (Q * Z)) : Prop :=
  StronglySorted lex vs /\ forall x y, In x vs -> In y pq -> lex x (snd y, fst y).
Lemma lex_trans : forall a b c, lex a b -> lex b c -> lex a c.
Proof. unfold lex. intros a b c [A|[A A']] [B|[B B']]; [left; lra|left; lra|left; lra|right; split; [lra|lia]]. Qed.
Lemma lex_refl : forall a, lex a a.
Proof. intros a. right. split; [lra|lia]. Qed.
Lemma item_ge_lex : forall x y, item_lt x y = false -> lex (snd y, fst y) (snd x, fst x).
Proof.
  intros x y H. unfold item_lt in H. unfold lex. cbn [fst snd]. destruct (Qeq_bool (fst x) (fst y)) eqn:E.
  - apply Qeq_bool_eq in E. apply Z.ltb_ge in H. right. split; [lra|auto].
  - apply Qltb_ge in H. left. apply Qeq_bool_neq in E. apply Qle_lteq in H as [H|H]; auto. exfalso. apply E. rewrite H. reflexivity.
Qed.
Lemma item_lt_lex : forall x y, item_lt x y = true -> lex (snd x, fst x) (snd y, fst y).
Proof.
  intros x y H. unfold item_lt in H. unfold lex. cbn [fst snd]. destruct (Qeq_bool (fst x) (fst y)) eqn:E.
  - apply Qeq_bool_eq in E. apply Z.ltb_lt in H. right. split; [lra|lia].
  - apply Qltb_lt in H. left. auto.
Qed.
Lemma pop_lex : forall l x m k, pop_least x l = (m, k) -> forall y, In y (x :: l) -> lex (snd m, fst m) (snd y, fst y).
Proof.
  induction l as [|z l IH]; intros x m k H y I; cbn [pop_least] in H.
  - injection H as <- _. destruct I as [<-|[]]. apply lex_refl.
  - destruct (item_lt z x) eqn:E; destruct (pop_least _ l) as [m' k'] eqn:P; injection H as <- _; pose proof (IH _ _ _ P) as K.
    + destruct I as [<-|[<-|I]]; [|apply K; left; auto|apply K; right; auto]. eapply lex_trans; [apply K; left; reflexivity|apply item_lt_lex; auto].
    + destruct I as [<-|[<-|I]]; [apply K; left; auto| |apply K; right; auto]. eapply lex_trans; [apply K; left; reflexivity|apply item_ge_lex; auto].
Qed.
Lemma loop_spec : forall fuel s vs pq out, inv s vs pq -> (List.length pq + left_over (map fst vs) <= fuel)%nat ->
  exists tl, traverse_loop fuel edges attr pq (map fst vs) out = Some (Ok (map fst (vs ++ tl), out ++ flat_map (fun x => map (pair (fst x)) (neighbors edges (fst x))) tl)) /\
    inv s (vs ++ tl) [] /\ (nonneg -> shortest s vs pq -> shortest s (vs ++ tl) []) /\ (positive -> tied vs pq -> tied (vs ++ tl) []).
Proof.
  induction fuel as [|fuel IH]; intros s vs pq out I F.
  - destruct pq; [|cbn in F; lia]. exists []. cbn. rewrite !app_nil_r. auto.
  - destruct pq as [|x r]; [exists []; cbn; rewrite !app_nil_r; auto|]. cbn [traverse_loop]. destruct (pop_least x r) as [m q] eqn:P. pose proof (pop_perm _ _ _ _ P) as PP. pose proof (pop_min _ _ _ _ P) as PM.
    assert (LQ : List.length (x :: r) = Datatypes.S (List.length q)) by (rewrite (Permutation_length PP); reflexivity). destruct I as (I1 & I2 & I3 & I4 & I5).
    assert (SUB : forall y, In y q -> In y (x :: r)) by (intros y Y; apply (Permutation_in _ (Permutation_sym PP)); right; auto).
    assert (MIN : In m (x :: r)) by (apply (Permutation_in _ (Permutation_sym PP)); left; auto).
    destruct (existsb (Z.eqb (snd m)) (map fst vs)) eqn:V.
    + apply existsb_in in V.
      assert (I' : inv s vs q).
      { split; auto. split; auto. split; auto. split.
        - intros y v w Y W. destruct (I4 y v w Y W) as [A|A]; auto. apply (Permutation_in _ PP) in A as [A|A]; auto. left. rewrite A in V. exact V.
        - right. destruct I5 as [[-> _]|I5]; auto. }
      destruct (IH s vs q out I') as (tl & T1 & T2 & T3 & T4); [rewrite LQ in F; lia|]. exists tl. split; [exact T1|]. split; [exact T2|]. split; [intros NN (H1 & H2 & H3); apply T3; auto; split; auto|]. intros PO [H1 H2]. apply T4; auto. split; auto.
    + assert (NV : ~ In (snd m) (map fst vs)) by (intros K; apply existsb_in in K; congruence).
      destruct (push_spec (map fst vs ++ [snd m]) (fst m) (snd m) (neighbors edges (snd m)) q) as (new & E & LN & NW & ALL); [intros v; apply neighbors_in|]. rewrite E.
      set (vs2 := vs ++ [(snd m, fst m)]). assert (EV : map fst vs ++ [snd m] = map fst vs2) by (unfold vs2; rewrite map_app; reflexivity). rewrite EV in *.
      assert (I' : inv s vs2 (new ++ q)).
      { split; [rewrite <- EV; apply nodup_snoc; auto|]. split; [|split; [|split]].
        - intros y Y. unfold vs2 in Y. apply in_app_iff in Y as [Y|[<-|[]]]; auto. cbn. auto.
        - intros y Y. apply in_app_iff in Y as [Y|Y]; auto. destruct (NW y Y) as (w & E1 & E2). rewrite E1. econstructor; eauto.
        - intros y v w Y W. destruct (in_dec Z.eq_dec v (map fst vs2)) as [K|K]; auto. right. apply in_app_iff. unfold vs2 in Y. apply in_app_iff in Y as [Y|[<-|[]]].
          + right. destruct (I4 y v w Y W) as [A|A]; [exfalso; apply K; rewrite <- EV; apply in_app_iff; auto|]. apply (Permutation_in _ PP) in A as [A|A]; auto. exfalso. apply K. rewrite <- EV. apply in_app_iff. right. left. rewrite A. reflexivity.
          + left. cbn [fst snd] in *. destruct (ALL v) as (w' & W1 & W2); auto; [apply neighbors_in; eapply weight_edge; eauto|]. rewrite (weight_fun _ _ _ _ _ _ W W1). auto.
        - right. rewrite <- EV. apply in_app_iff. destruct I5 as [[-> E2]|I5]; auto. right. left. rewrite E2 in MIN. destruct MIN as [<-|[]]. reflexivity. }
      pose proof (left_over_add (map fst vs) (snd m) NV) as LO. rewrite EV in LO.
      destruct (IH s vs2 (new ++ q) (out ++ map (pair (snd m)) (neighbors edges (snd m))) I') as (tl & T1 & T2 & T3 & T4); [rewrite app_length; rewrite LQ in F; lia|].
      exists ((snd m, fst m) :: tl). unfold vs2 in *. rewrite <- !app_assoc in T1. rewrite <- app_assoc in T2, T3, T4. cbn [app flat_map] in *. split; [rewrite T1; reflexivity|]. split; [exact T2|]. split; cycle 1.
      { intros PO [H1 H2]. apply T4; auto. split.
        - apply sorted_snoc; auto.
        - intros y z Y Zq. assert (A : lex y (snd m, fst m)) by (apply in_app_iff in Y as [Y|[<-|[]]]; [apply H2; auto|apply lex_refl]). eapply lex_trans; [exact A|].
          apply in_app_iff in Zq as [Zq|Zq]; [|apply (pop_lex _ _ _ _ P); auto]. destruct (NW z Zq) as (w & E1 & W). pose proof (PO _ _ _ W). left. cbn. rewrite E1. lra. }
      intros NN SH. apply T3; auto. destruct SH as (H1 & H2 & H3). split; [|split].
      * apply sorted_snoc; auto. intros y Y. cbn. apply H2; auto.
      * intros y z Y Zq. assert (A : (snd y <= fst m)%Q) by (apply in_app_iff in Y as [Y|[<-|[]]]; [apply H2; auto|cbn; lra]). apply in_app_iff in Zq as [Zq|Zq].
        { destruct (NW z Zq) as (w & -> & W). pose proof (NN _ _ _ W). lra. } { pose proof (PM z (SUB z Zq)). lra. }
      * intros y d Y W. apply in_app_iff in Y as [Y|[<-|[]]]; [eapply H3; eauto|]. cbn [fst snd] in *.
        destruct (crossing s vs (x :: r) NN (conj I1 (conj I2 (conj I3 (conj I4 I5)))) (conj H1 (conj H2 H3)) _ _ W NV) as (z & Z1 & Z2). pose proof (PM z Z1). lra.
Qed.
Lemma traverse_spec : forall fuel s, (List.length edges < fuel)%nat -> exists vs, traverse fuel edges attr s = Some (Ok (map fst vs, flat_map (fun x => leaving edges (fst x)) vs)) /\
  NoDup (map fst vs) /\ (forall v, In v (map fst vs) <-> reach edges s v) /\ (forall x, In x vs -> walk edges attr s (fst x) (snd x)) /\
  (nonneg -> StronglySorted (fun a b => (snd a <= snd b)%Q) vs /\ forall x, In x vs -> distance edges attr s (fst x) (snd x)) /\ (positive -> StronglySorted lex vs).
Proof.
  intros fuel s F. unfold traverse.
  assert (I : inv s [] [(0, s)]%Q). { split; [constructor|]. split; [intros ? []|]. split; [intros x [<-|[]]; constructor|]. split; [intros ? ? ? []|]. left; auto. }
  assert (L : (List.length [(0, s)]%Q + left_over (map fst (@nil (Z * Q))) <= fuel)%nat).
  { cbn [map List.length]. unfold left_over. assert (X : forall l : list (Z * Z), (List.length (filter (fun e => negb (existsb (Z.eqb (fst e)) [])) l) <= List.length l)%nat) by (induction l; cbn in *; lia). specialize (X edges). lia. }
  destruct (loop_spec fuel s [] [(0, s)]%Q [] I L) as (vs & T1 & (I1 & I2 & I3 & I4 & I5) & T3 & T4). cbn [map app] in *. exists vs. split; [|split; [|split; [|split; [|split]]]]; auto.
  - rewrite T1. do 3 f_equal. clear. induction vs as [|x vs IH]; cbn; auto. f_equal; auto. unfold neighbors, leaving. rewrite map_map. clear. induction edges as [|[a b] r IH]; cbn; auto. destruct (Z.eqb_spec a (fst x)) as [->|]; cbn; congruence.
  - intros v. split.
    + intros V. apply in_map_iff in V as [x [<- X]]. eapply walk_reach; eauto.
    + intros R. assert (S0 : In s (map fst vs)) by (destruct I5 as [[_ K]|]; [discriminate|auto]). induction R as [|u v R IH E]; auto. apply in_map_iff in IH as [x [<- X]]. destruct (weight_some _ _ E) as (w & i & _ & _ & W). destruct (I4 x v w X W) as [A|[]]; auto.
  - intros NN. destruct (T3 NN) as (H1 & H2 & H3); [split; [constructor|split; intros ? ? []]|]. split; [exact H1|]. intros x X. split; [auto|]. intros d W. exact (H3 x d X W).
  - intros PO. apply (T4 PO). split; [constructor|intros ? ? []].
Qed.
End GRAPH.
