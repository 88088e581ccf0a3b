From Coq Require Import Sorted Permutation Relations QArith Lia.
From Verif Require Import PyBase L_Base L_Sort M_Note M_Events M_Seq S_Seq L_Seq M_Chord M_Graph S_Graph L_Chord.
Open Scope Z_scope.

Lemma edge_eqb_spec : forall a b, reflect (a = b) (edge_eqb a b).
Proof.
  intros [a1 a2] [b1 b2]. unfold edge_eqb. cbn. destruct (Z.eqb_spec a1 b1), (Z.eqb_spec a2 b2); cbn; constructor; congruence.
Qed.
Lemma has_edge_iff : forall g a b, has_edge g a b = true <-> edge g a b.
Proof. intros. unfold has_edge, edge. destruct (edge_weight g a b); split; eauto; try discriminate. intros [w H]; discriminate. Qed.
Lemma edge_dec : forall g a b, edge g a b \/ ~ edge g a b.
Proof. intros. unfold edge. destruct (edge_weight g a b); [left; eauto|right; intros [w H]; discriminate]. Qed.
Lemma weight_edge : forall g a b, ~ edge g a b -> weight g a b = 0.
Proof. intros g a b H. unfold weight. destruct (edge_weight g a b) eqn:E; auto. exfalso. apply H. exists z. exact E. Qed.

(** Steps of walks. *)
Lemma steps_snoc : forall w p h, steps ((w ++ [p]) ++ [h]) = steps (w ++ [p]) ++ [(p, h)].
Proof.
  induction w as [|a w IH]; intros p h; [reflexivity|]. cbn [app]. unfold steps. cbn [tl].
  destruct (w ++ [p]) as [|b r] eqn:E; [destruct w; discriminate|]. cbn [app combine]. f_equal.
  specialize (IH p h). rewrite E in IH. unfold steps in IH. cbn [tl app] in IH. exact IH.
Qed.
Lemma times_snoc : forall w p h a b, times a b ((w ++ [p]) ++ [h]) = times a b (w ++ [p]) + (if edge_eqb (p, h) (a, b) then 1 else 0).
Proof.
  intros. unfold times. rewrite steps_snoc, count_occ_app. cbn [count_occ]. destruct (pair_dec (p, h) (a, b)) as [E|E]; destruct (edge_eqb_spec (p, h) (a, b)); try congruence; lia.
Qed.
Lemma step_first : forall a b walk, In (a, b) (steps walk) -> first_step a b walk \/ first_step b a walk.
Proof.
  intros a b walk. unfold first_step. generalize (steps walk). intros l. induction l as [|x l IH]; intros H; [destruct H|].
  destruct (pair_dec x (a, b)) as [->|N1]; [left; exists [], l; split; [reflexivity|split; intros []]|].
  destruct (pair_dec x (b, a)) as [->|N2]; [right; exists [], l; split; [reflexivity|split; intros []]|].
  destruct H as [H|H]; [congruence|]. destruct (IH H) as [[l1 [l2 [E [A B]]]]|[l1 [l2 [E [A B]]]]]; [left|right]; exists (x :: l1), l2;
    (split; [rewrite E; reflexivity|]); split; intros [X|X]; congruence || auto.
Qed.
Lemma first_step_In : forall a b walk, first_step a b walk -> In (a, b) (steps walk).
Proof. intros a b walk [l1 [l2 [E _]]]. rewrite E. apply in_or_app. right. left. reflexivity. Qed.
Lemma first_step_snoc : forall w p h a b, first_step a b ((w ++ [p]) ++ [h]) <->
  first_step a b (w ++ [p]) \/ ((a, b) = (p, h) /\ ~ In (a, b) (steps (w ++ [p])) /\ ~ In (b, a) (steps (w ++ [p]))).
Proof.
  intros w p h a b. unfold first_step. rewrite steps_snoc. set (l := steps (w ++ [p])). split.
  - intros [l1 [l2 [E [A B]]]]. destruct l2 as [|x l2] using rev_ind.
    + right. apply app_inj_tail in E as [E1 E2]. subst l1. split; [congruence|]. split; auto.
    + left. clear IHl2. rewrite app_comm_cons, app_assoc in E. apply app_inj_tail in E as [E _]. exists l1, l2. auto.
  - intros [[l1 [l2 [E [A B]]]]|[E [A B]]].
    + exists l1, (l2 ++ [(p, h)]). split; [rewrite E, <- app_assoc; reflexivity|auto].
    + exists l, []. split; [rewrite E; reflexivity|auto].
Qed.
Lemma first_step_unique : forall a b walk, a <> b -> first_step a b walk -> ~ first_step b a walk.
Proof.
  intros a b walk N [l1 [l2 [E [A B]]]] [k1 [k2 [F [C D]]]]. rewrite E in F. clear E walk. revert k1 F C D. induction l1 as [|x l1 IH]; intros k1 F C D.
  - destruct k1 as [|y k1]; cbn in F; injection F as F1 F2; [congruence|]. apply D. left. congruence.
  - destruct k1 as [|y k1]; cbn in F; injection F as F1 F2.
    + apply B. left. congruence.
    + apply (IH (fun H => A (or_intror H)) (fun H => B (or_intror H)) k1 F2); intros H; [apply C|apply D]; right; auto.
Qed.
Lemma first_seen_snoc : forall l h, first_seen (l ++ [h]) = if in_dec Z.eq_dec h l then first_seen l else first_seen l ++ [h].
Proof.
  intros l h. unfold first_seen. rewrite rev_app_distr. cbn [rev app nodup].
  destruct (in_dec Z.eq_dec h (rev l)) as [I|I]; destruct (in_dec Z.eq_dec h l) as [J|J]; try reflexivity.
  - exfalso. apply J. apply in_rev. exact I.
  - exfalso. apply I. apply in_rev in J. exact J.
Qed.
Lemma first_seen_id : forall l, NoDup l -> first_seen l = l.
Proof. intros l N. unfold first_seen. rewrite nodup_fixed_point; [apply rev_involutive|]. apply NoDup_rev. exact N. Qed.
Lemma first_seen_In : forall l x, In x (first_seen l) <-> In x l.
Proof. intros. unfold first_seen. rewrite <- in_rev, nodup_In, <- in_rev. reflexivity. Qed.
Lemma first_seen_NoDup : forall l, NoDup (first_seen l).
Proof. intros. unfold first_seen. apply NoDup_rev. apply NoDup_nodup. Qed.

(** One chord. *)
Definition chosen (g : digraph) (p h : Z) : Z * Z := if has_edge g h p then (h, p) else (p, h).
Lemma place_edges : forall g p h x names, g_edges (place g (Some p) h x names) =
  dict_set edge_eqb (chosen g p h) (weight g (fst (chosen g p h)) (snd (chosen g p h)) + 1) (g_edges g).
Proof.
  intros. unfold place, chosen. destruct (has_edge g h p) eqn:E1.
  - unfold bump. cbn [fst snd]. unfold weight. unfold has_edge in E1. destruct (edge_weight g h p); [reflexivity|discriminate].
  - destruct (has_edge g p h) eqn:E2.
    + unfold bump. cbn [fst snd]. unfold weight. unfold has_edge in E2. destruct (edge_weight g p h); [reflexivity|discriminate].
    + cbn [add_edge add_node g_edges fst snd]. rewrite weight_edge; [reflexivity|]. intros H. apply has_edge_iff in H. congruence.
Qed.
Lemma place_weight : forall g p h x names a b, edge_weight (place g (Some p) h x names) a b =
  if edge_eqb (chosen g p h) (a, b) then Some (weight g a b + 1) else edge_weight g a b.
Proof.
  intros. unfold edge_weight at 1. rewrite place_edges, (dict_get_set edge_eqb edge_eqb_spec).
  destruct (edge_eqb_spec (chosen g p h) (a, b)) as [->|]; reflexivity.
Qed.
Lemma place_nodes : forall g p h x names, graph_ok g -> nodes_of (place g (Some p) h x names) =
  if in_dec Z.eq_dec h (nodes_of g) then nodes_of g else nodes_of g ++ [h].
Proof.
  intros g p h x names [N1 [N2 [N3 N4]]].
  assert (IN : forall a b, edge g a b -> In a (nodes_of g) /\ In b (nodes_of g)).
  { intros a b [w W]. apply (dict_get_In edge_eqb edge_eqb_spec) in W. destruct (N3 a b w W) as [A [B _]]. auto. }
  unfold place. destruct (has_edge g h p) eqn:E1; [|destruct (has_edge g p h) eqn:E2].
  - apply has_edge_iff in E1. apply IN in E1 as [I _]. destruct (in_dec _ h (nodes_of g)); [|contradiction].
    unfold bump. destruct (edge_weight g h p); reflexivity.
  - apply has_edge_iff in E2. apply IN in E2 as [_ I]. destruct (in_dec _ h (nodes_of g)); [|contradiction].
    unfold bump. destruct (edge_weight g p h); reflexivity.
  - unfold nodes_of. cbn [add_edge add_node g_nodes]. rewrite (dict_set_keys Z.eqb Z.eqb_spec).
    destruct (dict_get Z.eqb h (g_nodes g)) eqn:D; destruct (in_dec Z.eq_dec h (map fst (g_nodes g))) as [I|I]; try reflexivity.
    + exfalso. apply I. apply (dict_get_In Z.eqb Z.eqb_spec) in D. apply (in_map fst) in D. exact D.
    + exfalso. apply (dict_get_None Z.eqb Z.eqb_spec) in D. contradiction.
Qed.
Lemma chosen_cases : forall g p h, (chosen g p h = (h, p) /\ edge g h p) \/ (chosen g p h = (p, h) /\ ~ edge g h p).
Proof.
  intros. unfold chosen. destruct (has_edge g h p) eqn:E; [left|right]; split; auto; rewrite <- has_edge_iff; congruence.
Qed.
Lemma place_edge : forall g p h x names a b, edge (place g (Some p) h x names) a b <-> edge g a b \/ chosen g p h = (a, b).
Proof.
  intros. unfold edge at 1. rewrite place_weight. destruct (edge_eqb_spec (chosen g p h) (a, b)) as [E|E].
  - split; [right; exact E|intros _; eexists; reflexivity].
  - split; [left; assumption|intros [H|H]; [exact H|contradiction]].
Qed.
Lemma place_ok : forall g p h x names, graph_ok g -> In p (nodes_of g) -> graph_ok (place g (Some p) h x names) /\ In h (nodes_of (place g (Some p) h x names)).
Proof.
  intros g p h x names G P. pose proof G as [N1 [N2 [N3 N4]]].
  assert (IH : In h (nodes_of (place g (Some p) h x names))).
  { rewrite place_nodes by auto. destruct (in_dec _ h (nodes_of g)); auto. apply in_or_app. right. left. auto. }
  assert (INC : forall y, In y (nodes_of g) -> In y (nodes_of (place g (Some p) h x names))).
  { intros y Hy. rewrite place_nodes by auto. destruct (in_dec _ h (nodes_of g)); auto. apply in_or_app. left. auto. }
  split; auto. split; [|split; [|split]].
  - rewrite place_nodes by auto. destruct (in_dec _ h (nodes_of g)); auto. apply (Permutation_NoDup (l := h :: nodes_of g)); [apply Permutation_cons_append|constructor; auto].
  - rewrite place_edges. apply dict_set_NoDup; auto. apply edge_eqb_spec.
  - intros a b w H. rewrite place_edges in H. apply (dict_set_In edge_eqb edge_eqb_spec) in H; auto. destruct H as [[H1 H2]|[H1 H2]].
    + assert (W : 0 <= weight g (fst (chosen g p h)) (snd (chosen g p h))).
      { unfold weight. destruct (edge_weight g _ _) eqn:E; [|lia]. apply (dict_get_In edge_eqb edge_eqb_spec) in E. apply N3 in E as [_ [_ E]]. lia. }
      assert (C : (a, b) = (h, p) \/ (a, b) = (p, h)) by (rewrite H1; unfold chosen; destruct (has_edge g h p); auto).
      destruct C as [[= -> ->]|[= -> ->]]; (split; [auto|split; [auto|lia]]).
    + apply N3 in H2 as [A [B C]]. auto.
  - intros a b NE H1 H2. apply place_edge in H1, H2.
    destruct (chosen_cases g p h) as [[C E]|[C E]]; rewrite C in H1, H2.
    + assert (X : edge g a b /\ edge g b a \/ edge g a b /\ (h, p) = (b, a) \/ (h, p) = (a, b) /\ edge g b a).
      { destruct H1 as [H1|H1], H2 as [H2|H2]; auto. exfalso. congruence. }
      destruct X as [[X Y]|[[X [= -> ->]]|[[= -> ->] X]]]; [apply (N4 a b)|apply (N4 a b)|apply (N4 a b)]; auto.
    + destruct H1 as [H1|H1], H2 as [H2|H2].
      * apply (N4 a b); auto.
      * apply E. congruence.
      * apply E. congruence.
      * congruence.
Qed.
Lemma place_extends : forall g0 w p g h x names, graph_ok g -> In p (nodes_of g) -> extends g0 (w ++ [p]) g ->
  extends g0 ((w ++ [p]) ++ [h]) (place g (Some p) h x names).
Proof.
  intros g0 w p g h x names G P [E1 [E2 [E3 E4]]]. pose proof G as [N1 [N2 [N3 N4]]]. split; [|split; [|split]].
  - rewrite place_nodes by auto. rewrite app_assoc, first_seen_snoc, <- E1.
    destruct (in_dec Z.eq_dec h (nodes_of g)) as [I|I]; destruct (in_dec Z.eq_dec h (nodes_of g0 ++ w ++ [p])) as [J|J]; auto; exfalso.
    + apply J. rewrite E1 in I. apply (proj1 (first_seen_In _ _)) in I. exact I.
    + apply I. rewrite E1. apply (proj2 (first_seen_In _ _)). exact J.
  - intros a b NE. rewrite !times_snoc. specialize (E2 a b NE).
    assert (W : forall a b, weight (place g (Some p) h x names) a b = weight g a b + (if edge_eqb (chosen g p h) (a, b) then 1 else 0)).
    { intros u v. unfold weight at 1. rewrite place_weight. destruct (edge_eqb (chosen g p h) (u, v)); [reflexivity|]. unfold weight. lia. }
    rewrite !W. clear W. assert (X : (if edge_eqb (chosen g p h) (a, b) then 1 else 0) + (if edge_eqb (chosen g p h) (b, a) then 1 else 0) =
      (if edge_eqb (p, h) (a, b) then 1 else 0) + (if edge_eqb (p, h) (b, a) then 1 else 0)); [|lia].
    unfold chosen. destruct (has_edge g h p); [|lia].
    destruct (edge_eqb_spec (h, p) (a, b)), (edge_eqb_spec (h, p) (b, a)), (edge_eqb_spec (p, h) (a, b)), (edge_eqb_spec (p, h) (b, a)); try lia; congruence.
  - intros a b NE. rewrite place_edge, first_step_snoc. rewrite (E3 a b NE). split.
    + intros [[H|[H1 H2]]|H]; auto.
      destruct (chosen_cases g p h) as [[C E]|[C E]]; rewrite C in H; injection H as -> ->.
      * apply E3 in E; auto. destruct E as [E|[E F]]; auto.
      * destruct (edge_dec g0 a b) as [D|D]; auto. right.
        assert (E' : ~ (edge g0 b a \/ ~ edge g0 a b /\ first_step b a (w ++ [a]))) by (rewrite <- E3 by congruence; exact E).
        assert (NB : ~ edge g0 b a) by tauto. split; auto.
        destruct (in_dec pair_dec (a, b) (steps (w ++ [a]))) as [I|I].
        -- apply step_first in I as [I|I]; auto. exfalso. apply E'. right. auto.
        -- destruct (in_dec pair_dec (b, a) (steps (w ++ [a]))) as [J|J]; [|right; auto].
           apply step_first in J as [J|J]; auto. exfalso. apply E'. right. auto.
    + intros [H|[H1 [H2|[H2 [H3 H4]]]]]; auto. injection H2 as <- <-.
      right. destruct (chosen_cases g a b) as [[C E]|[C E]]; auto. exfalso.
      apply E3 in E; auto. destruct E as [E|[_ E]]; [contradiction|]. apply first_step_In in E. contradiction.
  - intros a. rewrite times_snoc. unfold weight at 1. rewrite place_weight. specialize (E4 a).
    assert (X : edge_eqb (chosen g p h) (a, a) = edge_eqb (p, h) (a, a)).
    { unfold chosen. destruct (has_edge g h p); auto. unfold edge_eqb. cbn. apply andb_comm. }
    rewrite X. destruct (edge_eqb (p, h) (a, a)); [lia|]. fold (weight g a a). lia.
Qed.
Lemma extends_refl : forall g p, graph_ok g -> In p (nodes_of g) -> extends g [p] g.
Proof.
  intros g p [N1 _] P. split; [|split; [|split]].
  - rewrite first_seen_snoc. destruct (in_dec _ p (nodes_of g)); [|contradiction]. symmetry. apply first_seen_id. auto.
  - intros. unfold times. cbn. lia.
  - intros a b NE. split; auto. intros [H|[_ H]]; auto. apply first_step_In in H. destruct H.
  - intros. unfold times. cbn. lia.
Qed.
(** A sequence of chords, each given with its feature and label. *)
Definition item : Type := (Z * tensor * list Z)%type.
Definition put_item (st : digraph * option Z) (i : item) : digraph * option Z :=
  let '(h, x, names) := i in (place (fst st) (snd st) h x names, Some h).
Definition hash_of (i : item) : Z := fst (fst i).
Lemma put_items : forall l g0 w p g, graph_ok g -> In p (nodes_of g) -> extends g0 (w ++ [p]) g ->
  let g' := fst (fold_left put_item l (g, Some p)) in
  extends g0 (w ++ p :: map hash_of l) g' /\ graph_ok g' /\ snd (fold_left put_item l (g, Some p)) = Some (last (map hash_of l) p) /\ In (last (map hash_of l) p) (nodes_of g').
Proof.
  induction l as [|[[h x] names] l IH]; intros g0 w p g G P E; cbn [fold_left map].
  - cbn. auto.
  - cbn [put_item fst snd]. destruct (place_ok g p h x names G P) as [G' H']. pose proof (place_extends g0 w p g h x names G P E) as E'.
    specialize (IH g0 (w ++ [p]) h _ G' H' E'). cbn zeta in IH. destruct IH as [A [B [C D]]].
    change (hash_of (h, x, names)) with h. rewrite <- app_assoc in A. cbn [app] in A.
    split; [exact A|]. split; [exact B|]. rewrite C. assert (L : last (h :: map hash_of l) p = last (map hash_of l) h).
    { clear. revert h. induction (map hash_of l) as [|a r IH]; intros h; [reflexivity|]. cbn [last] in *. destruct r; auto. }
    rewrite L. auto.
Qed.
(** A fresh graph. *)
Lemma first_place : forall h x names, let g := place g_empty None h x names in
  graph_ok g /\ nodes_of g = [h] /\ (forall a b, edge_weight g a b = if edge_eqb (h, h) (a, b) then Some 1 else None).
Proof.
  intros h x names g. assert (W : forall a b, edge_weight g a b = if edge_eqb (h, h) (a, b) then Some 1 else None).
  { intros a b. unfold g, place, edge_weight. cbn [add_edge g_edges g_empty add_node dict_set dict_get]. reflexivity. }
  split; [|split; auto]. split; [|split; [|split]].
  - cbn. constructor; [auto|constructor].
  - cbn. constructor; [auto|constructor].
  - intros a b w H. cbn in H. destruct H as [[= <- <- <-]|[]]. cbn. split; [auto|split; [auto|lia]].
  - intros a b NE [w H] _. rewrite W in H. destruct (edge_eqb_spec (h, h) (a, b)); [congruence|discriminate].
Qed.
Lemma fresh_graph : forall i l, let g' := fst (fold_left put_item (i :: l) (g_empty, None)) in
  graph_of (map hash_of (i :: l)) g' /\ graph_ok g'.
Proof.
  intros [[h x] names] l g'. unfold g'. cbn [fold_left put_item fst snd]. destruct (first_place h x names) as [G [N W]]. set (g := place g_empty None h x names) in *.
  destruct (put_items l g [] h g G) as [[E1 [E2 [E3 E4]]] [B _]]; [rewrite N; left; auto|apply extends_refl; auto; rewrite N; left; auto|].
  cbn [app] in *. split; auto. cbn [map]. change (hash_of (h, x, names)) with h.
  assert (NW : forall a b, a <> b -> ~ edge g a b) by (intros a b NE [w H]; rewrite W in H; destruct (edge_eqb_spec (h, h) (a, b)); [congruence|discriminate]).
  split; [|split; [|split]].
  - rewrite E1, N. cbn [app]. clear. assert (H : forall l m, In h l -> first_seen (l ++ h :: m) = first_seen (l ++ m)).
    { intros k m. induction m as [|y m IH] using rev_ind; intros Hk.
      - rewrite app_nil_r. rewrite first_seen_snoc. destruct (in_dec _ h k); [auto|contradiction].
      - change (h :: m ++ [y]) with ((h :: m) ++ [y]). rewrite !app_assoc, !first_seen_snoc, IH by auto.
        assert (EQ : In y (k ++ h :: m) <-> In y (k ++ m)) by (rewrite !in_app_iff; cbn; intuition (subst; auto)).
        destruct (in_dec _ y (k ++ h :: m)), (in_dec _ y (k ++ m)); tauto || auto. }
    apply (H [h] (map hash_of l)). left. auto.
  - intros a b NE. rewrite E2 by auto. rewrite (weight_edge g a b), (weight_edge g b a); auto. 
  - intros a b NE. rewrite E3 by auto. split; [intros [H|[_ H]]; auto; exfalso; apply (NW a b); auto|intros H; right; split; auto].
  - intros a. rewrite E4. unfold weight. rewrite W. unfold edge_eqb. cbn [fst snd]. destruct (Z.eqb_spec h a); cbn [andb]; lia.
Qed.
