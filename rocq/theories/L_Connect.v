(** Lemmas for connect_instruments: keys, weights, links. *)
From Coq Require Import QArith Lia Bool Permutation Lqa.
From Verif Require Import PyBase L_Base M_SortedDict M_Note M_Events M_Seq M_Chord M_Seqs M_Connect S_Connect L_Chord.
Open Scope Z_scope.
Open Scope list_scope.

Lemma label_eqb_eq : forall a b, label_eqb a b = true <-> a = b.
Proof.
  intros [x|x] [y|y]; cbn; try (split; [discriminate|congruence]).
  - rewrite Z.eqb_eq. split; congruence.
  - rewrite String.eqb_eq. split; congruence.
Qed.
Lemma key_eqb_iff : forall a b, key_eqb a b = true <-> fst a = fst b /\ (snd a == snd b)%Q.
Proof. intros. unfold key_eqb. rewrite andb_true_iff, label_eqb_eq, Qeq_bool_iff. reflexivity. Qed.
Section Equiv.
Context {K V : Type} (eqb : K -> K -> bool).
Hypothesis S0 : forall a b, eqb a b = eqb b a.
Hypothesis T0 : forall a b c, eqb a b = true -> eqb a c = eqb b c.
Lemma get_set_equiv : forall (l : list (K * V)) k v k', dict_get eqb k' (dict_set eqb k v l) = if eqb k k' then Some v else dict_get eqb k' l.
Proof.
  induction l as [|[a x] l IH]; intros k v k'; cbn [dict_set dict_get]; auto.
  destruct (eqb a k) eqn:E; cbn [dict_get].
  - rewrite (T0 _ _ k' E). destruct (eqb k k'); reflexivity.
  - rewrite IH. destruct (eqb a k') eqn:F; auto. destruct (eqb k k') eqn:G; auto.
    rewrite (T0 _ _ k F), S0, G in E. discriminate.
Qed.
End Equiv.
Lemma key_sym : forall a b, key_eqb a b = key_eqb b a.
Proof.
  intros a b. apply eq_true_iff_eq. rewrite !key_eqb_iff. intuition (try congruence; try (symmetry; assumption)).
Qed.
Lemma key_trans : forall a b c, key_eqb a b = true -> key_eqb a c = key_eqb b c.
Proof.
  intros a b c H. apply eq_true_iff_eq. rewrite key_eqb_iff in *. rewrite !key_eqb_iff. destruct H as [H1 H2]. rewrite H1, H2. reflexivity.
Qed.

(** ** The table of labels and starts *)
Definition key_step := fun (r : res (list ((glabel * Q) * Z))) (nx : Z * vertex) => bind r (fun d =>
      match v_label (snd nx) with
      | None => Err KeyError
      | Some l => match v_start (snd nx) with None => Err KeyError | Some t => Ok (dict_set key_eqb (l, t) (fst nx) d) end
      end).
Lemma keys_snoc : forall g nx, node_keys (g ++ [nx]) = key_step (node_keys g) nx.
Proof. intros. unfold node_keys. rewrite fold_left_app. reflexivity. Qed.
Lemma keys_err : forall g, (exists a x, In (a, x) g /\ (v_label x = None \/ v_start x = None)) -> node_keys g = Err KeyError.
Proof.
  intros g. induction g as [|[b y] g IH] using rev_ind; intros [a [x [I H]]]; [destruct I|].
  rewrite keys_snoc. apply in_app_or in I as [I|[I|[]]].
  - rewrite IH by eauto. reflexivity.
  - injection I as -> ->. unfold key_step. cbn [snd fst].
    assert (E : forall h, node_keys h = Err KeyError \/ exists d, node_keys h = Ok d).
    { clear. intros h. induction h as [|nx h IH] using rev_ind; [right; eexists; reflexivity|]. rewrite keys_snoc. destruct IH as [->|[d ->]]; [left; reflexivity|].
      unfold key_step. cbn. destruct (v_label (snd nx)); auto. destruct (v_start (snd nx)); eauto. }
    destruct (E g) as [->|[d ->]]; [reflexivity|]. cbn. destruct H as [->| ->]; [reflexivity|]. destruct (v_label x); reflexivity.
Qed.
Lemma keys_ok : forall g, attributed g -> exists d, node_keys g = Ok d.
Proof.
  intros g. induction g as [|[b y] g IH] using rev_ind; intros A; [eexists; reflexivity|].
  destruct IH as [d D]; [intros a x I; apply (A a x), in_or_app; auto|]. rewrite keys_snoc, D. unfold key_step. cbn.
  destruct (A b y) as [L T]; [apply in_or_app; right; left; reflexivity|]. destruct (v_label y); [|congruence]. destruct (v_start y); [|congruence]. eauto.
Qed.
Lemma keys_spec : forall g d, node_keys g = Ok d -> forall p t a, dict_get key_eqb (GPitch p, t) d = Some a <-> node_at g p t a.
Proof.
  intros g. induction g as [|[b y] g IH] using rev_ind; intros d D p t a.
  - injection D as <-. cbn. split; [discriminate|]. intros [g1 [x [g2 [E _]]]]. destruct g1; discriminate.
  - rewrite keys_snoc in D. destruct (node_keys g) as [d0|] eqn:D0; [|discriminate]. unfold key_step in D. cbn in D.
    destruct (v_label y) as [l|] eqn:L; [|discriminate]. destruct (v_start y) as [t0|] eqn:T; [|discriminate]. injection D as <-.
    rewrite (get_set_equiv _ key_sym key_trans). specialize (IH d0 eq_refl p t a). destruct (key_eqb (l, t0) (GPitch p, t)) eqn:KE.
    + apply key_eqb_iff in KE as [K1 K2]. cbn in K1, K2. assert (CY : called y p t) by (split; [congruence|exists t0; auto]). split.
      * intros E. injection E as <-. exists g, y, []. split; [reflexivity|]. split; auto.
      * intros [g1 [x [g2 [E [C N]]]]]. destruct g2 as [|z g2] using rev_ind.
        -- apply app_inj_tail in E as [_ E]. congruence.
        -- clear IHg2. rewrite app_comm_cons, app_assoc in E. apply app_inj_tail in E as [_ <-]. exfalso. apply (N b y); auto. apply in_or_app. right. left. reflexivity.
    + assert (CY : ~ called y p t). { intros [C1 [t' [C2 C3]]]. assert (key_eqb (l, t0) (GPitch p, t) = true); [|congruence]. apply key_eqb_iff. cbn. split; [congruence|]. rewrite T in C2. injection C2 as <-. auto. }
      rewrite IH. split.
      * intros [g1 [x [g2 [-> [C N]]]]]. exists g1, x, (g2 ++ [(b, y)]). split; [rewrite <- app_assoc; reflexivity|]. split; auto. intros b0 y0 I. apply in_app_or in I as [I|[I|[]]]; [eauto|]. injection I as <- <-. auto.
      * intros [g1 [x [g2 [E [C N]]]]]. destruct g2 as [|z g2] using rev_ind.
        -- apply app_inj_tail in E as [_ E]. injection E as -> ->. contradiction.
        -- clear IHg2. rewrite app_comm_cons, app_assoc in E. apply app_inj_tail in E as [E <-]. exists g1, x, g2. split; auto. split; auto. intros b0 y0 I. apply (N b0 y0), in_or_app. auto.
Qed.

(** ** Weights *)
Lemma is_node_get : forall (g : wgraph) a, is_node g a <-> exists x, dict_get Z.eqb a g = Some x.
Proof.
  intros g a. unfold is_node. destruct (dict_get Z.eqb a g) eqn:E.
  - split; [eauto|]. intros _. destruct (in_dec Z.eq_dec a (map fst g)); auto. apply (dict_get_None Z.eqb Z.eqb_spec) in n. congruence.
  - apply (dict_get_None Z.eqb Z.eqb_spec) in E. split; [contradiction|intros [x X]; discriminate].
Qed.
Lemma set_nbr_weight : forall g u v w a b, is_node g u -> weight_of (set_nbr g u v w) a b = if (u =? a) && (v =? b) then Some w else weight_of g a b.
Proof.
  intros g u v w a b N. apply is_node_get in N as [x X]. unfold weight_of, set_nbr. rewrite X, (dict_get_set Z.eqb Z.eqb_spec).
  destruct (Z.eqb_spec u a) as [->|]; cbn [andb]; auto. cbn [v_adj]. rewrite (dict_get_set Z.eqb Z.eqb_spec), X. reflexivity.
Qed.
Lemma dict_set_data : forall (g : wgraph) u x y, dict_get Z.eqb u g = Some x -> v_label y = v_label x -> v_start y = v_start x -> node_data (dict_set Z.eqb u y g) = node_data g.
Proof.
  unfold node_data. induction g as [|[c z] g IH]; intros u x y E L T; cbn in *; [discriminate|]. destruct (c =? u).
  - injection E as ->. cbn. rewrite L, T. reflexivity.
  - cbn. rewrite (IH u x y) by auto. reflexivity.
Qed.
Lemma set_nbr_data : forall g u v w, node_data (set_nbr g u v w) = node_data g.
Proof. intros. unfold set_nbr. destruct (dict_get Z.eqb u g) eqn:E; auto. apply (dict_set_data _ _ v0); auto. Qed.
Lemma data_nodes : forall g g', node_data g' = node_data g -> map fst g' = map fst g.
Proof. intros g g' H. apply (f_equal (map fst)) in H. unfold node_data in H. rewrite !map_map in H. exact H. Qed.
Lemma data_get : forall g g' a, node_data g' = node_data g ->
  option_map (fun x => (v_label x, v_start x)) (dict_get Z.eqb a g') = option_map (fun x => (v_label x, v_start x)) (dict_get Z.eqb a g).
Proof.
  induction g as [|[c z] g IH]; intros [|[c' z'] g'] a H; try discriminate; auto. unfold node_data in H. cbn in H. injection H as H1 H2 H3 H4. cbn. rewrite H1.
  destruct (c =? a); [cbn; congruence|]. apply IH. exact H4.
Qed.
Lemma data_start : forall g g' a, node_data g' = node_data g -> start_of g' a = start_of g a.
Proof.
  intros g g' a H. apply (data_get g g' a) in H. unfold start_of. destruct (dict_get Z.eqb a g'), (dict_get Z.eqb a g); cbn in H; congruence.
Qed.
Lemma set_nbr_len : forall g u v w c, weight_of g u v <> None -> List.length (adj_of (set_nbr g u v w) c) = List.length (adj_of g c).
Proof.
  intros g u v w c H. unfold weight_of in H. unfold adj_of, set_nbr. destruct (dict_get Z.eqb u g) as [x|] eqn:X; [|congruence].
  rewrite (dict_get_set Z.eqb Z.eqb_spec). destruct (Z.eqb_spec u c) as [->|]; auto. rewrite X. cbn [v_adj].
  rewrite <- (map_length fst (dict_set _ _ _ _)), (dict_set_keys Z.eqb Z.eqb_spec). destruct (dict_get Z.eqb v (v_adj x)); [apply map_length|congruence].
Qed.
Lemma set_nbr_len_other : forall g u v w c, c <> u -> adj_of (set_nbr g u v w) c = adj_of g c.
Proof.
  intros g u v w c H. unfold adj_of, set_nbr. destruct (dict_get Z.eqb u g) as [x|] eqn:X; auto.
  rewrite (dict_get_set Z.eqb Z.eqb_spec). destruct (Z.eqb_spec u c); [congruence|]. reflexivity.
Qed.
Lemma adj_edge : forall g u v, In v (map fst (adj_of g u)) <-> edge g u v.
Proof.
  intros g u v. unfold edge, weight_of, adj_of. destruct (dict_get Z.eqb u g) as [x|]; [|cbn; split; [tauto|congruence]].
  destruct (dict_get Z.eqb v (v_adj x)) eqn:E.
  - split; [congruence|]. intros _. destruct (in_dec Z.eq_dec v (map fst (v_adj x))); auto. apply (dict_get_None Z.eqb Z.eqb_spec) in n. congruence.
  - apply (dict_get_None Z.eqb Z.eqb_spec) in E. split; [contradiction|congruence].
Qed.

(** ** What a set of links does *)
Section Links.
Variable directed : bool.
(** From [g] to [g'] exactly the edges [J] were set. *)
Record links (J : Z -> Z -> Prop) (g g' : wgraph) : Prop := mkLinks {
  lk_data : node_data g' = node_data g;
  lk_keep : forall a b, edge g a b -> edge g' a b;
  lk_one : forall a b, weight_of g a b = Some 1%Q -> weight_of g' a b = Some 1%Q;
  lk_from : forall a b w, weight_of g' a b = Some w -> weight_of g a b = Some w \/ w = 1%Q /\ (J a b \/ directed = false /\ J b a);
  lk_to : forall a b, J a b -> weight_of g' a b = Some 1%Q /\ (directed = false -> weight_of g' b a = Some 1%Q);
  lk_sym : directed = false -> (forall a b, weight_of g a b = weight_of g b a) -> forall a b, weight_of g' a b = weight_of g' b a;
  lk_len : forall u, (forall b, edge g' u b -> edge g u b) -> List.length (adj_of g' u) = List.length (adj_of g u) }.
Lemma links_none : forall J g, (forall a b, ~ J a b) -> links J g g.
Proof. intros J g H. split; auto. intros a b X. destruct (H _ _ X). Qed.
Lemma links_iff : forall J J' g g', (forall a b, J a b <-> J' a b) -> links J g g' -> links J' g g'.
Proof. intros J J' g g' H [A B C D E F G]. split; auto; intros; [|apply E, H; auto]. destruct (D a b w) as [X|[X Y]]; auto. right. rewrite <- !H. auto. Qed.
Lemma links_trans : forall J1 J2 g g1 g2, links J1 g g1 -> links J2 g1 g2 -> links (fun a b => J1 a b \/ J2 a b) g g2.
Proof.
  intros J1 J2 g g1 g2 [A B C D E F G] [A' B' C' D' E' F' G']. split; auto.
  - congruence.
  - intros a b w H. destruct (D' a b w H) as [H1|[H1 H2]]; [destruct (D a b w H1) as [H2|[H2 H3]]; auto|]; right; split; auto; tauto.
  - intros a b [H|H]; [destruct (E a b H); split; auto|apply E'; auto].
  - intros u H. rewrite G'; [apply G|]; intros b X; [apply H; auto|]. apply B. apply H. exact X.
Qed.
Lemma links_add : forall g a b, is_node g a -> is_node g b -> links (fun x y => x = a /\ y = b) g (add_wedge directed g a b 1).
Proof.
  intros g a b NA NB. unfold add_wedge. destruct directed eqn:DI.
  - split.
    + apply set_nbr_data.
    + intros x y H. unfold edge. rewrite set_nbr_weight by auto. destruct (_ && _); [discriminate|exact H].
    + intros x y H. rewrite set_nbr_weight by auto. destruct (_ && _); auto.
    + intros x y w. rewrite set_nbr_weight by auto. destruct (Z.eqb_spec a x) as [->|]; [|auto]. destruct (Z.eqb_spec b y) as [->|]; [|auto]. cbn. intros H. injection H as <-. auto.
    + intros x y [-> ->]. rewrite set_nbr_weight by auto. rewrite !Z.eqb_refl. cbn. split; auto. congruence.
    + congruence.
    + intros u H. destruct (Z.eq_dec u a) as [->|NE]; [|rewrite set_nbr_len_other; auto]. apply set_nbr_len. apply H. unfold edge. rewrite set_nbr_weight by auto. rewrite !Z.eqb_refl. discriminate.
  - assert (NB' : is_node (set_nbr g a b 1) b). { unfold is_node. rewrite (data_nodes g) by apply set_nbr_data. exact NB. }
    assert (W : forall x y, weight_of (set_nbr (set_nbr g a b 1) b a 1) x y = if ((b =? x) && (a =? y)) || ((a =? x) && (b =? y)) then Some 1%Q else weight_of g x y).
    { intros x y. rewrite set_nbr_weight, set_nbr_weight by auto. destruct ((b =? x) && (a =? y)), ((a =? x) && (b =? y)); reflexivity. }
    split.
    + rewrite !set_nbr_data. reflexivity.
    + intros x y H. unfold edge. rewrite W. destruct (_ || _); [discriminate|exact H].
    + intros x y H. rewrite W. destruct (_ || _); auto.
    + intros x y w. rewrite W. destruct (Z.eqb_spec b x), (Z.eqb_spec a y), (Z.eqb_spec a x), (Z.eqb_spec b y); cbn; intros H; try (left; exact H); injection H as <-; right; (split; [reflexivity|]); first [left; split; congruence | right; split; [assumption|split; congruence]].
    + intros x y [-> ->]. rewrite !W, !Z.eqb_refl. cbn. rewrite orb_true_r. auto.
    + intros _ S x y. rewrite !W. rewrite (S x y). destruct (b =? x), (a =? y), (a =? x), (b =? y); reflexivity.
    + intros u H. assert (Q1 : u = a -> edge g a b) by (intros ->; apply H; unfold edge; rewrite W, !Z.eqb_refl; cbn; rewrite orb_true_r; discriminate).
      assert (Q2 : u = b -> edge g b a) by (intros ->; apply H; unfold edge; rewrite W, !Z.eqb_refl; cbn; discriminate).
      destruct (Z.eq_dec u b) as [->|NE].
      * rewrite set_nbr_len by (rewrite set_nbr_weight by auto; destruct (_ && _); [discriminate|apply Q2; auto]).
        destruct (Z.eq_dec b a) as [->|NE]; [apply set_nbr_len, Q1; auto|rewrite set_nbr_len_other; auto].
      * rewrite set_nbr_len_other by auto. destruct (Z.eq_dec u a) as [->|NE']; [apply set_nbr_len, Q1; auto|rewrite set_nbr_len_other; auto].
Qed.
End Links.
