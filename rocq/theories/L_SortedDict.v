From Coq Require Import Lia Permutation Sorted.
From Verif Require Import PyBase L_Base M_Interval M_SortedDict S_Interval S_Dict.

Section P.
Context {K V : Type} (ltb eqb : K -> K -> bool).
Hypothesis STO : strict_total_order ltb eqb.
Notation lt := (fun a b => ltb a b = true).
Notation get := (od_get K V eqb).

Lemma eqb_refl k : eqb k k = true.
Proof. apply (sto_eq _ _ STO). reflexivity. Qed.
Lemma eqb_neq a b : a <> b -> eqb a b = false.
Proof. intro H. destruct (eqb a b) eqn:E; [|reflexivity]. apply (sto_eq _ _ STO) in E. contradiction. Qed.
Lemma K_dec (a b : K) : a = b \/ a <> b.
Proof.
  destruct (eqb a b) eqn:E; [left|right].
  - apply (sto_eq _ _ STO); auto.
  - intros ->. rewrite eqb_refl in E. discriminate.
Qed.
Lemma ltb_asym a b : ltb a b = true -> ltb b a = false.
Proof.
  intro H. destruct (ltb b a) eqn:E; [|reflexivity].
  pose proof (sto_trans _ _ STO _ _ _ H E) as C. rewrite (sto_irr _ _ STO) in C. discriminate.
Qed.

Lemma get_In l k v : get l k = Some v -> In (k, v) l.
Proof.
  induction l as [|[k' v'] r IH]; cbn; [discriminate|].
  destruct (eqb k' k) eqn:E.
  - intros [= ->]. apply (sto_eq _ _ STO) in E. subst. auto.
  - auto.
Qed.
Lemma get_None l k : get l k = None <-> ~ In k (map fst l).
Proof.
  induction l as [|[k' v'] r IH]; cbn; [tauto|].
  destruct (eqb k' k) eqn:E.
  - apply (sto_eq _ _ STO) in E. subst. split; [discriminate|]. intro H. exfalso. apply H. auto.
  - rewrite IH. split; [|tauto]. intros H [->|H']; [rewrite eqb_refl in E; discriminate|auto].
Qed.
Lemma get_set l k v k' : get (od_set K V eqb l k v) k' = if eqb k k' then Some v else get l k'.
Proof.
  induction l as [|[a b] r IH]; cbn; [reflexivity|].
  destruct (eqb a k) eqn:E; cbn.
  - apply (sto_eq _ _ STO) in E. subst a. destruct (eqb k k'); reflexivity.
  - destruct (eqb a k') eqn:E2.
    + apply (sto_eq _ _ STO) in E2. subst a.
      destruct (eqb k k') eqn:E3; [|reflexivity].
      apply (sto_eq _ _ STO) in E3. subst. rewrite eqb_refl in E. discriminate.
    + exact IH.
Qed.
Lemma get_del l k k' : NoDup (map fst l) ->
  get (od_del K V eqb l k) k' = if eqb k k' then None else get l k'.
Proof.
  induction l as [|[a b] r IH]; cbn; intro ND; [destruct (eqb k k'); reflexivity|].
  inversion ND as [|? ? Hn ND']; subst.
  destruct (eqb a k) eqn:E; cbn.
  - apply (sto_eq _ _ STO) in E. subst a. destruct (eqb k k') eqn:E2; [|reflexivity].
    apply (sto_eq _ _ STO) in E2. subst k'. apply get_None. exact Hn.
  - destruct (eqb a k') eqn:E2.
    + apply (sto_eq _ _ STO) in E2. subst a.
      destruct (eqb k k') eqn:E3; [|reflexivity].
      apply (sto_eq _ _ STO) in E3. subst. rewrite eqb_refl in E. discriminate.
    + apply IH; auto.
Qed.

Lemma od_set_fresh l k v : ~ In k (map fst l) -> od_set K V eqb l k v = l ++ [(k, v)].
Proof.
  induction l as [|[a b] r IH]; cbn; intro H; [reflexivity|].
  rewrite eqb_neq by (intros ->; apply H; auto). rewrite IH; auto.
Qed.

Lemma od_del_perm l k : In k (map fst l) -> Permutation (map fst l) (k :: map fst (od_del K V eqb l k)).
Proof.
  induction l as [|[a b] r IH]; cbn; [intros []|].
  intros H. destruct (eqb a k) eqn:E.
  - apply (sto_eq _ _ STO) in E. subst. reflexivity.
  - destruct H as [->|H]; [rewrite eqb_refl in E; discriminate|].
    cbn. rewrite (IH H) at 1. apply perm_swap.
Qed.

(** representation invariant *)
Record Inv (d : sdict K V) : Prop := {
  inv_nd : NoDup (map fst (od d));
  inv_perm : Permutation (map fst (od d)) (sd_keys d);
  inv_sorted : StronglySorted lt (sd_keys d)
}.

Lemma inv_empty : Inv sd_empty.
Proof. split; cbn; constructor. Qed.

Lemma list_remove_sorted k l :
  StronglySorted lt l -> In k l ->
  exists l', list_remove eqb k l = Ok l' /\ StronglySorted lt l' /\ Permutation l (k :: l').
Proof.
  induction l as [|y r IH]; intros Hs Hin; [destruct Hin|].
  inversion Hs as [|? ? Hsr Hall]; subst. cbn.
  destruct (eqb y k) eqn:E.
  - apply (sto_eq _ _ STO) in E. subst. exists r. auto.
  - destruct Hin as [->|Hin]; [rewrite eqb_refl in E; discriminate|].
    destruct (IH Hsr Hin) as (l' & Hl & Hs' & Hp). rewrite Hl.
    exists (y :: l'). split; [reflexivity|]. split.
    + constructor; [auto|]. rewrite Forall_forall in *. intros z Hz. apply Hall.
      apply (Permutation_in z (Permutation_sym Hp)). cbn; auto.
    + rewrite Hp at 1. apply perm_swap.
Qed.

Lemma mem_get d k : od_mem K V eqb (od d) k = match get (od d) k with Some _ => true | None => false end.
Proof. reflexivity. Qed.

Lemma sd_del_absent d k : get (od d) k = None -> sd_del K V eqb d k = (Err KeyError, d).
Proof. unfold sd_del, od_mem. intros ->. reflexivity. Qed.

Lemma sd_del_present d k v : Inv d -> get (od d) k = Some v ->
  exists ks, sd_del K V eqb d k = (Ok tt, mkSD (od_del K V eqb (od d) k) ks)
    /\ Inv (mkSD (od_del K V eqb (od d) k) ks).
Proof.
  intros [ND P S] H. unfold sd_del, od_mem. rewrite H.
  assert (Hin : In k (map fst (od d))).
  { apply in_map_iff. exists (k, v). split; [reflexivity|]. apply get_In; auto. }
  destruct (list_remove_sorted k (sd_keys d) S (Permutation_in _ P Hin)) as (ks & Hk & Hs & Hp).
  rewrite Hk. exists ks. split; [reflexivity|].
  pose proof (od_del_perm _ _ Hin) as Hd.
  split; cbn.
  - apply (Permutation_NoDup Hd) in ND. inversion ND; auto.
  - apply Permutation_cons_inv with (a := k). rewrite <- Hd, P. exact Hp.
  - exact Hs.
Qed.

Lemma split_sorted l k : StronglySorted lt l -> ~ In k l ->
  exists l1 l2, l = l1 ++ l2 /\ Forall (fun y => ltb y k = true) l1 /\
     Forall (fun y => ltb k y = true) l2.
Proof.
  induction l as [|y r IH]; intros Hs Hn.
  - exists [], []. auto.
  - inversion Hs as [|? ? Hsr Hall]; subst.
    destruct (sto_total _ _ STO y k) as [Hc|[->|Hc]].
    + assert (Hn2 : ~ In k r) by (intro; apply Hn; cbn; auto).
      destruct (IH Hsr Hn2) as (l1 & l2 & -> & H1 & H2).
      exists (y :: l1), l2. cbn. auto.
    + exfalso. apply Hn. cbn; auto.
    + exists [], (y :: r). split; [reflexivity|]. split; [constructor|].
      constructor; [auto|]. rewrite Forall_forall in *. intros z Hz.
      eapply (sto_trans _ _ STO); [exact Hc|]. auto.
Qed.

Lemma SS_app (l1 l2 : list K) : StronglySorted lt (l1 ++ l2) ->
  StronglySorted lt l1 /\ StronglySorted lt l2 /\ Forall (fun a => Forall (fun b => lt a b) l2) l1.
Proof.
  induction l1 as [|a l1 IH]; cbn; intro H.
  - repeat split; auto. constructor.
  - inversion H as [|? ? Hs Hall]; subst. destruct (IH Hs) as (A & B & C).
    rewrite Forall_app in Hall. destruct Hall as [H1 H2]. repeat split; auto.
    constructor; auto.
Qed.
Lemma SS_app_intro (l1 l2 : list K) : StronglySorted lt l1 -> StronglySorted lt l2 ->
  Forall (fun a => Forall (fun b => lt a b) l2) l1 -> StronglySorted lt (l1 ++ l2).
Proof.
  induction l1 as [|a l1 IH]; cbn; intros H1 H2 H3; [auto|].
  inversion H1; subst. inversion H3; subst. constructor; auto. apply Forall_app; auto.
Qed.

Lemma insert_sorted l k : StronglySorted lt l -> ~ In k l ->
  StronglySorted lt (list_insert l (bisect_left ltb l k) k).
Proof.
  intros Hs Hn. destruct (split_sorted l k Hs Hn) as (l1 & l2 & -> & H1 & H2).
  rewrite bisect_left_app; auto.
  2:{ eapply Forall_impl; [|exact H2]. cbn. intros a Ha. apply ltb_asym; auto. }
  rewrite list_insert_app. destruct (SS_app _ _ Hs) as (A & B & C).
  apply SS_app_intro; auto.
  - constructor; auto.
  - rewrite Forall_forall in *. intros a Ha. constructor; auto.
Qed.

Lemma sd_set_fresh d k v : Inv d -> get (od d) k = None ->
  exists ks, sd_set K V ltb eqb d k v = (Ok tt, mkSD (od_set K V eqb (od d) k v) ks)
   /\ Inv (mkSD (od_set K V eqb (od d) k v) ks).
Proof.
  intros [ND P S] H. unfold sd_set. rewrite mem_get, H.
  eexists. split; [reflexivity|].
  assert (Hn : ~ In k (map fst (od d))) by (apply get_None; auto).
  assert (Hn' : ~ In k (sd_keys d)).
  { intro Hc. apply Hn. apply (Permutation_in _ (Permutation_sym P)). exact Hc. }
  assert (Hp : Permutation (map fst (od_set K V eqb (od d) k v)) (k :: map fst (od d))).
  { rewrite od_set_fresh by auto. rewrite map_app. cbn. symmetry. apply Permutation_cons_append. }
  split; cbn.
  - apply (Permutation_NoDup (Permutation_sym Hp)). constructor; auto.
  - rewrite Hp. rewrite P. apply list_insert_perm.
  - apply insert_sorted; auto.
Qed.

Lemma sd_set_ok d k v : Inv d ->
  exists d', sd_set K V ltb eqb d k v = (Ok tt, d') /\ Inv d' /\
    forall k', get (od d') k' = if eqb k k' then Some v else get (od d) k'.
Proof.
  intros HI. destruct (get (od d) k) as [v0|] eqn:G.
  - destruct (sd_del_present d k v0 HI G) as (ks & Hd & HI').
    set (d1 := mkSD (od_del K V eqb (od d) k) ks) in *.
    assert (G1 : get (od d1) k = None).
    { unfold d1. cbn. rewrite get_del by apply HI. rewrite eqb_refl. reflexivity. }
    destruct (sd_set_fresh d1 k v HI' G1) as (ks2 & Hs & HI2).
    exists (mkSD (od_set K V eqb (od d1) k v) ks2). split; [|split].
    + unfold sd_set in *. rewrite mem_get, G. rewrite Hd. rewrite mem_get, G1 in Hs. exact Hs.
    + exact HI2.
    + intros k'. cbn. rewrite get_set. unfold d1. cbn. rewrite get_del by apply HI.
      destruct (eqb k k'); reflexivity.
  - destruct (sd_set_fresh d k v HI G) as (ks2 & Hs & HI2).
    eexists. split; [exact Hs|]. split; [exact HI2|].
    intros k'. cbn. apply get_set.
Qed.

Lemma sd_step_ok d o : Inv d ->
  Inv (snd (sd_step K V ltb eqb d o)) /\
  forall k, get (od (snd (sd_step K V ltb eqb d o))) k =
    match o with
    | SdSet k' v => if eqb k' k then Some v else get (od d) k
    | SdDel k' => if eqb k' k then None else get (od d) k
    end.
Proof.
  intros HI. destruct o as [k' v|k']; cbn.
  - destruct (sd_set_ok d k' v HI) as (d' & -> & HI' & Hg). auto.
  - destruct (get (od d) k') as [v0|] eqn:G.
    + destruct (sd_del_present d k' v0 HI G) as (ks & -> & HI'). split; [exact HI'|].
      intro k. cbn. apply get_del, HI.
    + rewrite (sd_del_absent d k' G). cbn. split; [auto|].
      intro k. destruct (eqb k' k) eqn:E; [|reflexivity]. apply (sto_eq _ _ STO) in E. subst. auto.
Qed.

Lemma sd_run_snoc d ops o :
  sd_run K V ltb eqb d (ops ++ [o]) = snd (sd_step K V ltb eqb (sd_run K V ltb eqb d ops) o).
Proof. unfold sd_run. rewrite fold_left_app. reflexivity. Qed.

Lemma sd_run_ok ops :
  Inv (sd_run K V ltb eqb sd_empty ops) /\
  forall k, get (od (sd_run K V ltb eqb sd_empty ops)) k = value_after eqb (map as_write ops) k.
Proof.
  induction ops as [|o ops IH] using rev_ind.
  - split; [apply inv_empty|]. reflexivity.
  - destruct IH as [HI Hg]. rewrite sd_run_snoc.
    destruct (sd_step_ok _ o HI) as [HI' Hg']. split; [exact HI'|].
    intro k. rewrite Hg'. rewrite map_app. cbn [map]. unfold value_after. rewrite rev_app_distr. cbn.
    destruct o as [k' v|k']; cbn; rewrite Hg; reflexivity.
Qed.

Lemma get_nodup_In l k v : NoDup (map fst l) -> In (k, v) l -> get l k = Some v.
Proof.
  induction l as [|[a b] r IH]; cbn; intros ND H; [destruct H|].
  inversion ND as [|? ? Hn ND']; subst. destruct H as [[= -> ->]|H].
  - rewrite eqb_refl. reflexivity.
  - rewrite eqb_neq; [auto|]. intros ->. apply Hn. apply in_map_iff. exists (k, v). auto.
Qed.

Lemma mapM_ok {A B} (f : A -> res B) (g : A -> B) l :
  (forall a, In a l -> f a = Ok (g a)) -> mapM f l = Ok (map g l).
Proof.
  induction l as [|a l IH]; cbn; intro H; [reflexivity|].
  rewrite H by auto. rewrite IH; [reflexivity|]. intros; apply H; auto.
Qed.

Lemma keys_iff d k : Inv d -> (In k (sd_keys d) <-> exists v, get (od d) k = Some v).
Proof.
  intros HI. split.
  - intro H. apply (Permutation_in _ (Permutation_sym (inv_perm _ HI))) in H.
    destruct (get (od d) k) eqn:G; [eauto|]. apply get_None in G. contradiction.
  - intros [v Hv]. apply (Permutation_in _ (inv_perm _ HI)).
    apply in_map_iff. exists (k, v). split; [reflexivity|]. apply get_In; auto.
Qed.

(** The items of a well-formed dict. *)
Lemma items_ok d : Inv d ->
  exists its, sd_items K V eqb d = Ok its /\ map fst its = sd_keys d /\
    sd_values K V eqb d = Ok (map snd its) /\
    (forall k v, In (k, v) its <-> get (od d) k = Some v).
Proof.
  intros HI.
  (* build pairs by recursion on keys *)
  assert (H : forall ks, (forall k, In k ks -> exists v, get (od d) k = Some v) ->
     exists its, mapM (fun k => bind (sd_get K V eqb d k) (fun v => Ok (k, v))) ks = Ok its
       /\ map fst its = ks /\ mapM (sd_get K V eqb d) ks = Ok (map snd its)
       /\ (forall k v, In (k, v) its -> get (od d) k = Some v)).
  { induction ks as [|k ks IH]; intro Hk.
    - exists []. cbn. tauto.
    - destruct (Hk k (or_introl eq_refl)) as [v Hv].
      destruct IH as (its & H1 & H2 & H3 & H4); [intros; apply Hk; cbn; auto|].
      exists ((k, v) :: its). cbn. unfold sd_get in *. rewrite Hv. cbn. rewrite H1, H3. cbn.
      repeat split; try congruence. intros k' v' [[= <- <-]|H]; auto. }
  destruct (H (sd_keys d)) as (its & H1 & H2 & H3 & H4).
  { intros k Hk. apply keys_iff; auto. }
  exists its. repeat split; auto.
  intro Hg. assert (Hin : In k (sd_keys d)) by (apply keys_iff; eauto).
  rewrite <- H2 in Hin. apply in_map_iff in Hin as ([k' v'] & E & Hin). cbn in E. subst k'.
  pose proof (H4 _ _ Hin). congruence.
Qed.

(** Two well-formed dicts with the same lookups list the same items. *)
Lemma SS_unique (l l' : list K) : StronglySorted lt l -> StronglySorted lt l' ->
  (forall k, In k l <-> In k l') -> l = l'.
Proof.
  revert l'. induction l as [|a l IH]; intros l' Hs Hs' He.
  - destruct l' as [|b l']; [reflexivity|]. exfalso. apply (He b). cbn; auto.
  - destruct l' as [|b l']; [exfalso; apply (He a); cbn; auto|].
    inversion Hs as [|? ? Hs1 Ha]; subst. inversion Hs' as [|? ? Hs2 Hb]; subst.
    rewrite Forall_forall in *.
    assert (a = b).
    { destruct (proj1 (He a) (or_introl eq_refl)) as [->|H1]; [reflexivity|].
      destruct (proj2 (He b) (or_introl eq_refl)) as [->|H2]; [reflexivity|].
      pose proof (ltb_asym _ _ (Ha _ H2)). rewrite (Hb _ H1) in H. discriminate. }
    subst b. f_equal. apply IH; auto. intro k. specialize (He k). cbn in He. split; intro H.
    + destruct (proj1 He (or_intror H)) as [->|]; auto.
      pose proof (Ha _ H) as C. rewrite (sto_irr _ _ STO) in C. discriminate.
    + destruct (proj2 He (or_intror H)) as [->|]; auto.
      pose proof (Hb _ H) as C. rewrite (sto_irr _ _ STO) in C. discriminate.
Qed.
End P.
