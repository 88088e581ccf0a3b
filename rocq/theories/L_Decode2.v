(** Building the same again. *)
From Coq Require Import Sorted Permutation Lia.
From Verif Require Import PyBase L_Base M_Note L_Note M_Events M_Seq S_Seq M_Chord M_Graph S_Graph L_Chord L_Graph L_Graph2 L_Graph3 L_Graph11 S_Decode.
Open Scope Z_scope.

Lemma reg_all_app : forall e l l' b, reg_all e b (l ++ l') = reg_all e (reg_all e b l) l'.
Proof. intros. unfold reg_all. apply fold_left_app. Qed.
Lemma reg_all_cons : forall e a l b, reg_all e b (a :: l) = reg_all e (register b (e_shash e a) a) l.
Proof. reflexivity. Qed.
(** A step whose result and graph do not depend on the builder. *)
Lemma visit_log : forall e c notes g lst a, exists r g' lst' l, forall b, visit e c notes (b, g, lst) a = (r, (reg_all e b l, g', lst')).
Proof.
  intros e c notes g lst a. unfold visit. destruct (if c_velocity c then _ else _) as [v|x].
  - destruct (create_tensor (c_type c) a v (c_size c) 127) as [x|x].
    + exists (Ok tt), (place g lst (e_shash e a) x (frozenset e (map n_pitch notes))), (Some (e_shash e a)), [a]. reflexivity.
    + exists (Err x), g, lst, [a]. reflexivity.
  - exists (Err x), g, lst, []. reflexivity.
Qed.
Lemma each_log : forall e A (f : builder * digraph * option Z -> A -> res unit * (builder * digraph * option Z)),
  (forall g lst a, exists r g' lst' l, forall b, f (b, g, lst) a = (r, (reg_all e b l, g', lst'))) ->
  forall al g lst, exists r g' lst' l, forall b, each f (b, g, lst) al = (r, (reg_all e b l, g', lst')).
Proof.
  intros e A f H. induction al as [|a al IH]; intros g lst; cbn [each]; [exists (Ok tt), g, lst, []; reflexivity|].
  destruct (H g lst a) as (r1 & g1 & lst1 & l1 & E1). destruct r1 as [u|x].
  - destruct (IH g1 lst1) as (r2 & g2 & lst2 & l2 & E2). exists r2, g2, lst2, (l1 ++ l2). intros b. rewrite E1, E2, reg_all_app. reflexivity.
  - exists (Err x), g1, lst1, l1. intros b. rewrite E1. reflexivity.
Qed.
Lemma sequence_log : forall e s c g, exists r l, forall b, build_sequence e b s c g = (r, reg_all e b l).
Proof.
  intros e s c g. unfold build_sequence. destruct (_ || _); [exists (Err ValueError), []; reflexivity|]. destruct (_ <=? 0); [exists (Err ValueError), []; reflexivity|].
  destruct (_ || _); [exists (Err ValueError), []; reflexivity|]. destruct (compute_data _ _ _ _ _ _) as [[[|d data] lg]|x]; [eexists; exists []; reflexivity| |exists (Err x), []; reflexivity].
  destruct (match g with None => _ | Some _ => _ end) as [[g0 lst]|x]; [|exists (Err x), []; reflexivity].
  destruct (each_log e _ (visit_group e c)) with (al := in_key_order (d :: data)) (g := g0) (lst := lst) as (r & g' & lst' & l & E).
  { intros g1 lst1 a. unfold visit_group. apply each_log. intros. apply visit_log. }
  destruct r as [u|x]; [exists (Ok g'), l|exists (Err x), l]; intros b; rewrite E; reflexivity.
Qed.
Definition keep_all (b : builder) (gs : list digraph) : builder := fold_left keep_graph gs b.
Lemma keep_reg : forall b h ch g, register (keep_graph b g) h ch = keep_graph (register b h ch) g.
Proof. intros. unfold register, keep_graph. cbn. destruct (dict_get Z.eqb h (b_h2i b)); reflexivity. Qed.
Lemma keep_reg_all : forall e l b g, reg_all e (keep_graph b g) l = keep_graph (reg_all e b l) g.
Proof. induction l as [|a l IH]; intros b g; [reflexivity|]. rewrite !reg_all_cons, keep_reg. apply IH. Qed.
Lemma tracks_log : forall e conv c per l large, exists r lg gs, forall b, build_tracks e conv c per b large l = (r, keep_all (reg_all e b lg) gs).
Proof.
  intros e conv c per. induction l as [|s l IH]; intros large; cbn [build_tracks]; [exists (Ok large), [], []; reflexivity|].
  destruct (i_drum _); [apply IH|]. destruct (Nat.eqb _ _); [apply IH|].
  destruct (sequence_log e s c (if per then None else large)) as (r1 & l1 & E1). destruct r1 as [g|x]; [|exists (Err x), l1, []; intros b; rewrite E1; reflexivity].
  assert (G : forall large', exists r lg gs, forall b, build_tracks e conv c per (reg_all e b l1) large' l = (r, keep_all (reg_all e b lg) gs)).
  { intros large'. destruct (IH large') as (r2 & l2 & gs & E2). exists r2, (l1 ++ l2), gs. intros b. rewrite E2, reg_all_app. reflexivity. }
  destruct (g_nodes g) eqn:GN.
  - destruct (G large) as (r2 & l2 & gs & E2). exists r2, l2, gs. intros b. rewrite E1, GN. apply E2.
  - destruct per.
    + destruct (conv g) as [x|] eqn:CG.
      * exists (Err x), l1, []. intros b. rewrite E1, GN, CG. reflexivity.
      * destruct (IH large) as (r2 & l2 & gs & E2). exists r2, (l1 ++ l2), (g :: gs). intros b. rewrite E1, GN, CG, E2. rewrite keep_reg_all, <- reg_all_app. reflexivity.
    + destruct (G (Some g)) as (r2 & l2 & gs & E2). exists r2, l2, gs. intros b. rewrite E1, GN. apply E2.
Qed.
Lemma build_log : forall e conv l c per, exists r lg gs, forall b, build e conv b l c per = (r, keep_all (reg_all e b lg) gs).
Proof.
  intros e conv l c per. unfold build. destruct (tracks_log e conv c per l None) as (r & lg & gs & E). destruct r as [[g|]|x].
  - destruct (conv g) as [x|] eqn:CG; [exists (Err x), lg, gs|exists (Ok tt), lg, (gs ++ [g])]; intros b; rewrite E, CG; [reflexivity|]. unfold keep_all. rewrite fold_left_app. reflexivity.
  - exists (Ok tt), lg, gs. intros b. rewrite E. reflexivity.
  - exists (Err x), lg, gs. intros b. rewrite E. reflexivity.
Qed.
Lemma keep_all_fields : forall gs b, b_n2h (keep_all b gs) = b_n2h b /\ b_h2n (keep_all b gs) = b_h2n b /\ b_h2i (keep_all b gs) = b_h2i b /\ b_i2h (keep_all b gs) = b_i2h b /\
  b_pyg (keep_all b gs) = b_pyg b ++ map (fun g => mkP g None None) gs /\ b_sub (keep_all b gs) = b_sub b ++ gs.
Proof.
  unfold keep_all. induction gs as [|g gs IH]; intros b; cbn [fold_left map]; [rewrite !app_nil_r; auto 10|].
  destruct (IH (keep_graph b g)) as (-> & -> & -> & -> & -> & ->). cbn [keep_graph b_n2h b_h2n b_h2i b_i2h b_pyg b_sub]. rewrite <- !app_assoc. auto 10.
Qed.
Lemma reg_all_fields : forall e l b, b_pyg (reg_all e b l) = b_pyg b /\ b_sub (reg_all e b l) = b_sub b.
Proof. induction l as [|a l IH]; intros b; [auto|]. rewrite reg_all_cons. destruct (IH (register b (e_shash e a) a)) as [-> ->]. apply register_fields. Qed.
Lemma h2n_all : forall e l b h, dict_get Z.eqb h (b_h2n (reg_all e b l)) =
  match find (fun a => e_shash e a =? h) (rev l) with Some a => Some a | None => dict_get Z.eqb h (b_h2n b) end.
Proof.
  intros e l b h. induction l as [|a l IH] using rev_ind; [reflexivity|]. rewrite reg_all_app, rev_app_distr. cbn [rev app find]. rewrite reg_all_cons.
  change (reg_all e ?x []) with x. assert (X : forall b0, b_h2n (register b0 (e_shash e a) a) = dict_set Z.eqb (e_shash e a) a (b_h2n b0)) by (intros; unfold register; cbv zeta; destruct (dict_get _ _ (b_h2i b0)); reflexivity).
  rewrite X, (dict_get_set Z.eqb Z.eqb_spec). destruct (e_shash e a =? h); [reflexivity|exact IH].
Qed.
Lemma n2h_all : forall e l b s, dict_get same_set s (b_n2h (reg_all e b l)) =
  match find (fun a => same_set a s) (rev l) with Some a => Some (e_shash e a) | None => dict_get same_set s (b_n2h b) end.
Proof.
  intros e l b s. induction l as [|a l IH] using rev_ind; [reflexivity|]. rewrite reg_all_app, rev_app_distr. cbn [rev app find]. rewrite reg_all_cons.
  change (reg_all e ?x []) with x. assert (X : forall b0, b_n2h (register b0 (e_shash e a) a) = dict_set same_set a (e_shash e a) (b_n2h b0)) by (intros; unfold register; cbv zeta; destruct (dict_get _ _ (b_h2i b0)); reflexivity).
  rewrite X, get_set_set. destruct (same_set a s); [reflexivity|exact IH].
Qed.
Lemma register_indexed : forall b h ch, dict_get Z.eqb h (b_h2i b) <> None -> b_h2i (register b h ch) = b_h2i b /\ b_i2h (register b h ch) = b_i2h b.
Proof. intros b h ch H. unfold register. cbv zeta. destruct (dict_get Z.eqb h (b_h2i b)); [auto|congruence]. Qed.
Lemma reg_all_indexed : forall e l b, (forall a, In a l -> dict_get Z.eqb (e_shash e a) (b_h2i b) <> None) -> b_h2i (reg_all e b l) = b_h2i b /\ b_i2h (reg_all e b l) = b_i2h b.
Proof.
  induction l as [|a l IH]; intros b H; [auto|]. rewrite reg_all_cons. destruct (register_indexed b (e_shash e a) a) as [R1 R2]; [apply H; left; auto|].
  destruct (IH (register b (e_shash e a) a)) as [-> ->]; [|auto]. intros x X. rewrite R1. apply H. right; exact X.
Qed.
Lemma register_has : forall b h ch x, dict_get Z.eqb x (b_h2i b) <> None \/ x = h -> dict_get Z.eqb x (b_h2i (register b h ch)) <> None.
Proof.
  intros b h ch x H. unfold register. cbv zeta. destruct (dict_get Z.eqb h (b_h2i b)) eqn:E; cbn [b_h2i].
  - destruct H as [H| ->]; congruence.
  - rewrite (dict_get_set Z.eqb Z.eqb_spec). destruct (Z.eqb_spec h x); [discriminate|]. destruct H; congruence.
Qed.
Lemma reg_all_has : forall e l b x, dict_get Z.eqb x (b_h2i b) <> None \/ (exists a, In a l /\ e_shash e a = x) -> dict_get Z.eqb x (b_h2i (reg_all e b l)) <> None.
Proof.
  induction l as [|a l IH]; intros b x H; [destruct H as [H|[a [[] _]]]; exact H|]. rewrite reg_all_cons. apply IH. destruct H as [H|[y [[<-|Y] E]]].
  - left. apply register_has. auto.
  - left. apply register_has. auto.
  - right. eauto.
Qed.
Lemma reg_twice : forall e l b, same_maps (reg_all e b l) (reg_all e (reg_all e b l) l).
Proof.
  intros e l b. destruct (reg_all_indexed e l (reg_all e b l)) as [R1 R2]; [intros a A; apply reg_all_has; right; eauto|].
  split; [intros h; rewrite R1; reflexivity|]. split; [intros i; rewrite R2; reflexivity|]. split.
  - intros h. rewrite !h2n_all. destruct (find _ (rev l)); reflexivity.
  - intros s. rewrite !n2h_all. destruct (find _ (rev l)); reflexivity.
Qed.
