From Coq Require Import Sorted Permutation Relations QArith Lia.
From Verif Require Import PyBase L_Base L_Sort M_Note L_Note M_Events M_Seq S_Seq L_Seq M_Chord M_Graph S_Graph L_Chord L_Chord2 L_Chord3 L_Graph.
Open Scope Z_scope.

Definition item_ok (e : env) (c : config) (gs : list (list note)) (i : item) : Prop :=
  exists notes chunk, In notes gs /\ In chunk (split_chord e (c_size c) notes) /\ hash_of i = e_shash e chunk /\
    create_tensor (c_type c) chunk (velocities_of e c notes chunk) (c_size c) 127 = Ok (snd (fst i)) /\ snd i = frozenset e (map n_pitch notes).
Lemma visit_ok : forall e c notes b g lst chunk st', visit e c notes (b, g, lst) chunk = (Ok tt, st') ->
  exists x, create_tensor (c_type c) chunk (velocities_of e c notes chunk) (c_size c) 127 = Ok x /\
    st' = (register b (e_shash e chunk) chunk, place g lst (e_shash e chunk) x (frozenset e (map n_pitch notes)), Some (e_shash e chunk)).
Proof.
  intros e c notes b g lst chunk st' H. unfold visit in H. unfold velocities_of. destruct (c_velocity c).
  - destruct (rescale (map (top_velocity notes) chunk)) as [v|x]; cbn [bind] in H; [|discriminate].
    destruct (create_tensor _ _ _ _ _) as [x|x]; [|discriminate]. injection H as <-. eauto.
  - destruct (create_tensor _ _ _ _ _) as [x|x]; [|discriminate]. injection H as <-. eauto.
Qed.
Definition reg_all (e : env) (b : builder) (l : list (list Z)) : builder := fold_left (fun b ch => register b (e_shash e ch) ch) l b.
Lemma visits_ok : forall e c notes gs, In notes gs -> forall l b g lst st', incl l (split_chord e (c_size c) notes) -> each (visit e c notes) (b, g, lst) l = (Ok tt, st') ->
  exists items, map hash_of items = map (e_shash e) l /\ Forall (item_ok e c gs) items /\
    st' = (reg_all e b l, fst (fold_left put_item items (g, lst)), snd (fold_left put_item items (g, lst))).
Proof.
  intros e c notes gs Hn. induction l as [|ch l IH]; intros b g lst st' IC H; cbn [each] in H.
  - injection H as <-. exists []. split; [reflexivity|]. split; [constructor|reflexivity].
  - destruct (visit e c notes (b, g, lst) ch) as [[[]|x] st1] eqn:V; [|discriminate]. apply visit_ok in V as [x [X1 X2]]. subst st1.
    destruct (IH _ _ _ _ (fun y Hy => IC y (or_intror Hy)) H) as [items [A [B C]]].
    exists ((e_shash e ch, x, frozenset e (map n_pitch notes)) :: items). split; [cbn; rewrite A; reflexivity|]. split.
    + constructor; auto. exists notes, ch. split; auto. split; [apply IC; left; auto|]. cbn. auto.
    + exact C.
Qed.
Lemma groups_ok : forall e c gs0 gs b g lst st', incl gs gs0 -> each (visit_group e c) (b, g, lst) gs = (Ok tt, st') ->
  let cs := List.concat (map (split_chord e (c_size c)) gs) in
  exists items, map hash_of items = map (e_shash e) cs /\ Forall (item_ok e c gs0) items /\
    st' = (reg_all e b cs, fst (fold_left put_item items (g, lst)), snd (fold_left put_item items (g, lst))).
Proof.
  intros e c gs0. induction gs as [|n gs IH]; intros b g lst st' IC H; cbn [each map List.concat] in *.
  - injection H as <-. exists []. split; [reflexivity|]. split; [constructor|reflexivity].
  - destruct (visit_group e c (b, g, lst) n) as [[[]|x] st1] eqn:V; [|discriminate]. unfold visit_group in V.
    apply (visits_ok e c n gs0 (IC n (or_introl eq_refl)) _ _ _ _ _ (incl_refl _)) in V as [i1 [A1 [B1 C1]]]. subst st1.
    destruct (IH _ _ _ _ (fun y Hy => IC y (or_intror Hy)) H) as [i2 [A2 [B2 C2]]].
    exists (i1 ++ i2). split; [rewrite !map_app, A1, A2; reflexivity|]. split; [apply Forall_app; auto|].
    rewrite C2. rewrite fold_left_app. unfold reg_all. rewrite fold_left_app.
    destruct (fold_left put_item i1 (g, lst)) as [g1 l1]. reflexivity.
Qed.

(** Node attributes. *)
Definition attr_ok (P : item -> Prop) (n : Z * nattr) : Prop :=
  exists i, P i /\ hash_of i = fst n /\ (snd n = NChord (snd (fst i)) (LHash (fst n)) (fst n) \/ snd n = NChord (snd (fst i)) (LNames (snd i)) (fst n)).
Lemma dict_set_Forall : forall K V (eqb : K -> K -> bool) (P : K * V -> Prop) l k v, (forall k', eqb k' k = true -> k' = k) -> Forall P l -> P (k, v) -> Forall P (dict_set eqb k v l).
Proof.
  intros K V eqb P l k v R F H. induction F as [|[k' v'] l F1 F2 IH]; cbn [dict_set]; [constructor; auto|].
  destruct (eqb k' k) eqn:E; constructor; auto. apply R in E. subst. exact H.
Qed.
Lemma put_attrs : forall P items g lst, Forall P items -> Forall (attr_ok P) (g_nodes g) -> Forall (attr_ok P) (g_nodes (fst (fold_left put_item items (g, lst)))).
Proof.
  intros P. induction items as [|[[h x] names] items IH]; intros g lst F A; cbn [fold_left]; auto. inversion F as [|? ? F1 F2]; subst.
  cbn [put_item fst snd]. apply IH; auto. assert (R : forall k, (k =? h) = true -> k = h) by (intros k; apply Z.eqb_eq).
  unfold place. destruct lst as [p|].
  - destruct (has_edge g h p); [unfold bump; destruct (edge_weight g h p); exact A|].
    destruct (has_edge g p h); [unfold bump; destruct (edge_weight g p h); exact A|].
    cbn [add_edge add_node g_nodes]. apply dict_set_Forall; auto. exists (h, x, names). cbn. auto.
  - cbn [add_edge add_node g_nodes]. apply dict_set_Forall; auto. exists (h, x, names). cbn. auto.
Qed.

(** build_sequence. *)
Definition key_of (e : env) (s : seq) (n : note) : Z := e_thash e (adjusted (compute_tolerance s 95) true 2 (n_start n)).
Lemma key_of_time : forall e s, time_key e (compute_tolerance s 95) (key_of e s).
Proof. intros e s n. exists (adjusted (compute_tolerance s 95) true 2 (n_start n)). split; [apply adjusted_snapped|reflexivity]. Qed.
Lemma chords_split : forall e s c gs, env_ok e -> 0 < c_size c -> groups_of (key_of e s) (c_filter c) (q_notes s) gs ->
  chords_of e s c (List.concat (map (split_chord e (c_size c)) gs)).
Proof.
  intros e s c gs EO SZ G. exists (key_of e s), gs, (map (split_chord e (c_size c)) gs). split; [apply key_of_time|]. split; auto. split; auto.
  destruct G as [ks [_ [F _]]]. clear - F EO SZ. induction F as [|k g ks gs [_ [H _]] F IH]; cbn; constructor; auto. apply split_chord_splits; auto.
Qed.
Lemma build_valid : forall e b s c g g' b', build_sequence e b s c g = (Ok g', b') -> 0 < c_size c <= 128.
Proof.
  intros e b s c g g' b' H. unfold build_sequence in H. destruct ((c_size c <=? 0) || (128 <? c_size c)) eqn:E; [discriminate|].
  apply orb_false_iff in E as [E1 E2]. apply Z.leb_gt in E1. apply Z.ltb_ge in E2. lia.
Qed.
Definition start_of (g : option digraph) (g0 : digraph) (lst : option Z) : Prop :=
  match g with
  | None => g0 = g_empty /\ lst = None
  | Some g1 => g0 = g1 /\ exists ns p, nodes_of g1 = ns ++ [p] /\ lst = Some p
  end.
Lemma build_items : forall e b s c g g' b', env_ok e -> build_sequence e b s c g = (Ok g', b') ->
  exists gs items, let cs := List.concat (map (split_chord e (c_size c)) gs) in
    groups_of (key_of e s) (c_filter c) (q_notes s) gs /\ map hash_of items = map (e_shash e) cs /\ Forall (item_ok e c gs) items /\
    b' = reg_all e b cs /\
    (gs = [] -> g' = match g with Some g => g | None => g_empty end) /\
    (gs <> [] -> exists g0 lst, start_of g g0 lst /\ g' = fst (fold_left put_item items (g0, lst))).
Proof.
  intros e b s c g g' b' EO H. unfold build_sequence in H. destruct (_ || _); [discriminate|]. destruct (_ <=? 0); [discriminate|]. destruct (_ || _); [discriminate|].
  destruct (compute_data e s (c_tolerance c) (c_filter c) true 2) as [[data lg]|x] eqn:D; [|discriminate].
  apply compute_groups in D. cbv zeta in D.
  destruct data as [|d data].
  - injection H as H1 H2. exists [], []. cbn [map List.concat]. split; [exact D|]. split; [reflexivity|]. split; [constructor|]. split; [symmetry; exact H2|]. split; [intros _; symmetry; exact H1|congruence].
  - set (dd := d :: data) in *. assert (X : exists g0 lst, start_of g g0 lst /\
      match each (visit_group e c) (b, g0, lst) (in_key_order dd) with
      | (Err x, (b', _, _)) => (Err x, b') | (Ok _, (b', g', _)) => (Ok g', b') end = (Ok g', b')).
    { destruct g as [g1|].
      - unfold start_of. destruct (rev (g_nodes g1)) as [|[h a] r] eqn:RV; [discriminate|]. exists g1, (Some h). split.
        + split; auto. exists (map fst (rev r)), h. split; auto. unfold nodes_of. rewrite <- (rev_involutive (g_nodes g1)), RV. cbn [rev]. rewrite map_app. reflexivity.
        + exact H.
      - exists g_empty, None. split; [split; reflexivity|]. exact H. }
    destruct X as [g0 [lst [ST X]]].
    destruct (each (visit_group e c) (b, g0, lst) (in_key_order dd)) as [[[]|x] [[b1 g1] l1]] eqn:EA; [|discriminate]. injection X as -> ->.
    apply (groups_ok e c (in_key_order dd) _ _ _ _ _ (incl_refl _)) in EA as [items [A [B C]]]. injection C as C1 C2 C3.
    exists (in_key_order dd), items. split; [exact D|]. split; [exact A|]. split; [exact B|]. split; [exact C1|]. split.
    + intros E. exfalso. assert (L : List.length (in_key_order dd) = 0%nat) by (rewrite E; reflexivity).
      unfold in_key_order in L. rewrite map_length in L. rewrite <- (Permutation_length (py_sort_perm (fun a b : Z * list note => fst a <? fst b) dd)) in L. discriminate.
    + intros _. exists g0, lst. split; auto.
Qed.
Lemma graph_empty : graph_of [] g_empty /\ graph_ok g_empty.
Proof.
  split.
  - split; [reflexivity|]. split; [reflexivity|]. split; [|reflexivity]. intros a b _. split; [intros [w H]; discriminate|]. intros H. apply first_step_In in H. destruct H.
  - split; [constructor|]. split; [constructor|]. split; [intros a b w []|intros a b _ [w H]; discriminate].
Qed.
Lemma build_fresh : forall e b s c g' b', env_ok e -> build_sequence e b s c None = (Ok g', b') ->
  exists ws, chords_of e s c ws /\ graph_of (map (e_shash e) ws) g' /\ graph_ok g' /\ b' = reg_all e b ws.
Proof.
  intros e b s c g' b' EO H. pose proof (build_valid _ _ _ _ _ _ _ H) as V.
  destruct (build_items e b s c None g' b' EO H) as [gs [items [G [A [B [R [Z1 Z2]]]]]]].
  exists (List.concat (map (split_chord e (c_size c)) gs)). split; [apply chords_split; auto; lia|].
  destruct gs as [|g gs].
  - rewrite Z1 by auto. cbn. destruct graph_empty. auto.
  - destruct Z2 as [g0 [lst [[-> ->] E]]]; [discriminate|]. rewrite <- A. destruct items as [|i items].
    + cbn in E. subst g'. destruct graph_empty. auto.
    + rewrite E. destruct (fresh_graph i items). auto.
Qed.
Lemma build_onto : forall e b s c g ns p g' b', env_ok e -> graph_ok g -> nodes_of g = ns ++ [p] -> build_sequence e b s c (Some g) = (Ok g', b') ->
  exists ws, chords_of e s c ws /\ extends g (p :: map (e_shash e) ws) g' /\ graph_ok g' /\ b' = reg_all e b ws.
Proof.
  intros e b s c g ns p g' b' EO GO N H. pose proof (build_valid _ _ _ _ _ _ _ H) as V.
  assert (P : In p (nodes_of g)) by (rewrite N; apply in_or_app; right; left; auto).
  destruct (build_items e b s c (Some g) g' b' EO H) as [gs [items [G [A [B [R [Z1 Z2]]]]]]].
  exists (List.concat (map (split_chord e (c_size c)) gs)). split; [apply chords_split; auto; lia|].
  destruct gs as [|g1 gs].
  - rewrite Z1 by auto. cbn [map List.concat]. split; [apply extends_refl; auto|auto].
  - destruct Z2 as [g0 [lst [[-> [ns' [p' [N' ->]]]] E]]]; [discriminate|]. rewrite N in N'. apply app_inj_tail in N' as [_ <-].
    destruct (put_items items g [] p g GO P (extends_refl g p GO P)) as [E1 [E2 _]]. cbn [app] in E1. rewrite <- A, E. auto.
Qed.
Lemma chords_nonempty : forall e s c gs, groups_of (key_of e s) (c_filter c) (q_notes s) gs -> env_ok e -> 0 < c_size c ->
  gs <> [] -> List.concat (map (split_chord e (c_size c)) gs) <> [].
Proof.
  intros e s c gs [ks [_ [F _]]] EO SZ NE. destruct F as [|k g ks gs [F1 [F2 F3]] F]; [congruence|]. cbn. intros E. apply app_eq_nil in E as [E _].
  destruct g as [|n g]; [congruence|]. destruct (split_chord_splits e (c_size c) (n :: g) EO SZ F2) as [_ [I _]].
  rewrite E in I. cbn in I. apply (proj2 (I (n_pitch n))). exists n. auto.
Qed.

(** Connectivity. *)
Lemma linked_sym : forall g a b, linked g a b -> linked g b a.
Proof. unfold linked. tauto. Qed.
Lemma connected_sym : forall g a b, connected g a b -> connected g b a.
Proof.
  intros g a b H. induction H as [a b H|a|a b c H1 IH1 H2 IH2]; [apply rt_step; apply linked_sym; auto|apply rt_refl|eapply rt_trans; eauto].
Qed.
Lemma walk_connected : forall g walk, (forall a b, In (a, b) (steps walk) -> linked g a b) -> forall a b, In a walk -> In b walk -> connected g a b.
Proof.
  intros g walk H. assert (F : forall f r, walk = f :: r -> forall b, In b walk -> connected g f b).
  { induction walk as [|x walk IH]; intros f r E b Hb; [discriminate|]. injection E as -> ->. destruct Hb as [->|Hb]; [apply rt_refl|].
    destruct r as [|y r]; [destruct Hb|]. apply rt_trans with y; [apply rt_step; apply H; left; reflexivity|].
    apply (IH (fun a b I => H a b (or_intror I)) y r eq_refl b Hb). }
  intros a b Ha Hb. destruct walk as [|f r]; [destruct Ha|]. apply rt_trans with f; [apply connected_sym|]; apply (F f r eq_refl); auto.
Qed.
Lemma times_pos : forall a b walk, In (a, b) (steps walk) -> 1 <= times a b walk.
Proof. intros. unfold times. apply (count_occ_In pair_dec) in H. lia. Qed.
Lemma weight_pos_edge : forall g a b, 1 <= weight g a b -> edge g a b.
Proof. intros g a b H. unfold weight in H. unfold edge. destruct (edge_weight g a b); [eauto|lia]. Qed.
Lemma weight_nonneg : forall g a b, graph_ok g -> 0 <= weight g a b.
Proof.
  intros g a b [_ [_ [N _]]]. unfold weight. destruct (edge_weight g a b) eqn:E; [|lia]. apply (dict_get_In edge_eqb edge_eqb_spec) in E. apply N in E. lia.
Qed.
Lemma times_nonneg : forall a b w, 0 <= times a b w.
Proof. intros. unfold times. lia. Qed.
Lemma graph_linked : forall walk g, graph_ok g -> graph_of walk g -> forall a b, In (a, b) (steps walk) -> linked g a b.
Proof.
  intros walk g G [E1 [E2 [E3 E4]]] a b H. apply times_pos in H. unfold linked. destruct (Z.eq_dec a b) as [->|NE].
  - left. apply weight_pos_edge. rewrite E4. destruct (match walk with f :: _ => f =? b | [] => false end); lia.
  - specialize (E2 a b NE). pose proof (times_nonneg b a walk). pose proof (weight_nonneg g a b G). pose proof (weight_nonneg g b a G).
    destruct (Z_le_gt_dec 1 (weight g a b)); [left|right]; apply weight_pos_edge; lia.
Qed.
Lemma extends_linked : forall g0 walk g, graph_ok g0 -> graph_ok g -> extends g0 walk g -> forall a b, In (a, b) (steps walk) -> linked g a b.
Proof.
  intros g0 walk g G0 G [E1 [E2 [E3 E4]]] a b H. apply times_pos in H. unfold linked. destruct (Z.eq_dec a b) as [->|NE].
  - left. apply weight_pos_edge. rewrite E4. pose proof (weight_nonneg g0 b b G0). lia.
  - specialize (E2 a b NE). pose proof (times_nonneg b a walk). pose proof (weight_nonneg g0 a b G0). pose proof (weight_nonneg g0 b a G0). pose proof (weight_nonneg g a b G). pose proof (weight_nonneg g b a G).
    destruct (Z_le_gt_dec 1 (weight g a b)); [left|right]; apply weight_pos_edge; lia.
Qed.
Lemma graph_connected : forall walk g, graph_ok g -> graph_of walk g -> forall a b, In a (nodes_of g) -> In b (nodes_of g) -> connected g a b.
Proof.
  intros walk g G GO a b Ha Hb. apply (walk_connected g walk); [apply graph_linked; auto| |]; destruct GO as [E _]; rewrite E in *;
    eapply (proj1 (first_seen_In _ _)); eauto.
Qed.
