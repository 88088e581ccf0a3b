From Coq Require Import Lia Permutation Sorted ZifyBool.
From Verif Require Import PyBase L_Base M_Interval M_SortedDict S_Interval S_Dict L_SortedDict L_Interval.

Section P.
Context {V : Type}.
Notation get := (od_get interval V i_eqb).

Lemma sid_set_run (d : sid V) l :
  fold_left (fun d p => snd (sid_set V d (fst p) (snd p))) l d =
  sd_run interval V i_ltb i_eqb d (map (fun p => SdSet (fst p) (snd p)) l).
Proof.
  revert d. induction l as [|p l IH]; intro d; [reflexivity|]. cbn. rewrite IH. reflexivity.
Qed.

Lemma value_after_pairs (l : list (interval * V)) k v :
  NoDup (map fst l) ->
  (value_after i_eqb (map as_write (map (fun p => SdSet (fst p) (snd p)) l)) k = Some v <-> In (k, v) l).
Proof.
  intro ND. rewrite map_map. cbn. unfold value_after.
  rewrite <- map_rev.
  assert (ND' : NoDup (map fst (rev l))).
  { rewrite map_rev. apply NoDup_rev. exact ND. }
  rewrite (in_rev l). generalize dependent (rev l). clear l ND.
  induction l as [|[a b] r IH]; cbn; intro ND; [split; [discriminate|tauto]|].
  inversion ND as [|? ? Hn ND']; subst.
  destruct (i_eqb a k) eqn:E.
  - apply (sto_eq _ _ i_sto) in E. subst a. split.
    + intros [= ->]. auto.
    + intros [[= ->]|H]; [reflexivity|]. exfalso. apply Hn. apply in_map_iff. exists (k, v). auto.
  - rewrite IH by auto. split; [auto|]. intros [[= -> ->]|H]; [|auto].
    rewrite (proj2 (sto_eq _ _ i_sto k k) eq_refl) in E. discriminate.
Qed.

Lemma filter_fst_nodup (p : interval * V -> bool) l : NoDup (map fst l) -> NoDup (map fst (filter p l)).
Proof.
  induction l as [|a l IH]; cbn; intro ND; [constructor|].
  inversion ND as [|? ? Hn ND']; subst. destruct (p a); cbn; auto.
  constructor; auto. intro H. apply Hn. apply in_map_iff in H as (x & <- & Hx).
  apply filter_In in Hx. apply in_map. tauto.
Qed.

Lemma overlaps_slice_iff k a b : overlaps_slice k a b = true <-> exists x, in_closed k x /\ in_slice a b x.
Proof.
  unfold overlaps_slice, in_closed, in_slice. rewrite Z.leb_le. split.
  - intro H. exists (match a with Some s => Z.max (i_start k) s | None => i_start k end).
    destruct a, b; lia.
  - intros (x & H1 & H2). destruct a, b; lia.
Qed.

Notation Inv := (Inv i_ltb).

Lemma nodup_map_fst_items (d : sid V) (its : list (interval * V)) : Inv d -> map fst its = sd_keys d -> NoDup (map fst its).
Proof.
  intros HI ->. eapply Permutation_NoDup; [apply (inv_perm _ _ HI)|]. apply (inv_nd _ _ HI).
Qed.

Lemma sid_slice_ok (d : sid V) a b : Inv d ->
  exists d', sid_get V d (KSlice a b) = Ok (VDict d') /\ Inv d' /\
   forall k v, get (od d') k = Some v <-> get (od d) k = Some v /\ overlaps_slice k a b = true.
Proof.
  intros HI. destruct (items_ok _ _ i_sto d HI) as (its & H1 & H2 & _ & H4).
  cbn. rewrite H1. cbn. eexists. split; [reflexivity|].
  unfold sid_of_pairs. rewrite sid_set_run.
  set (l := filter _ its).
  destruct (sd_run_ok i_ltb i_eqb i_sto (map (fun p => SdSet (fst p) (snd p)) l)) as [HI' Hg].
  split; [exact HI'|]. intros k v. rewrite Hg. rewrite value_after_pairs.
  - unfold l. rewrite filter_In, H4. reflexivity.
  - apply filter_fst_nodup. exact (nodup_map_fst_items d its HI H2).
Qed.

Lemma sid_step_eq (d : sid V) o : sid_step V d o =
  match o with SidSet k v => snd (sd_step _ _ i_ltb i_eqb d (SdSet k v)) | _ => d end.
Proof.
  destruct o; cbn; try reflexivity.
  - unfold sid_del_slice. destruct (firstn _ _); reflexivity.
  - unfold sid_pop. destruct (sd_get _ _ _ _ _); reflexivity.
Qed.

Lemma sid_run_ok (ops : list (sid_op V)) :
  Inv (sid_run V ops) /\
  forall k, get (od (sid_run V ops)) k = value_after i_eqb (sid_writes ops) k.
Proof.
  induction ops as [|o ops IH] using rev_ind.
  - split; [apply inv_empty|reflexivity].
  - unfold sid_run in *. rewrite fold_left_app. cbn [fold_left].
    destruct IH as [HI Hg]. rewrite sid_step_eq.
    unfold sid_writes. rewrite flat_map_app. cbn [flat_map]. rewrite app_nil_r.
    destruct o as [k0 v0|k0|a b|k0]; cbn [sid_as_writes];
      try (rewrite app_nil_r; split; [exact HI|]; intro k; apply Hg).
    destruct (sd_step_ok _ _ i_sto _ (SdSet k0 v0) HI) as [HI' Hg'].
    split; [exact HI'|]. intro k. rewrite Hg'. unfold value_after. rewrite rev_app_distr. cbn.
    rewrite Hg. reflexivity.
Qed.
End P.

(** Packaged statements *)
Lemma sorted_dict_map_lemma : forall (K V : Type) (ltb eqb : K -> K -> bool),
  strict_total_order ltb eqb -> forall (ops : list (sd_op K V)),
  let d := sd_run K V ltb eqb sd_empty ops in
  let value k := value_after eqb (map as_write ops) k in
  (forall k, sd_get K V eqb d k = match value k with Some v => Ok v | None => Err KeyError end) /\
  StronglySorted (fun a b => ltb a b = true) (sd_keys_of d) /\
  (forall k, In k (sd_keys_of d) <-> exists v, value k = Some v) /\
  sd_len d = List.length (sd_keys_of d) /\
  (exists its, sd_items K V eqb d = Ok its /\ map fst its = sd_keys_of d /\
     sd_values K V eqb d = Ok (map snd its) /\ forall k v, In (k, v) its <-> value k = Some v) /\
  sd_reversed d = rev (sd_keys_of d).
Proof.
  intros K V ltb eqb STO ops d value.
  destruct (sd_run_ok ltb eqb STO ops) as [HI Hg]. fold d in HI, Hg.
  repeat split.
  - intro k. unfold sd_get, value. rewrite Hg. reflexivity.
  - apply (inv_sorted _ _ HI).
  - intro H. apply (keys_iff _ _ STO _ _ HI) in H. unfold value. rewrite <- Hg. exact H.
  - intro H. apply (keys_iff _ _ STO _ _ HI). unfold value in H. rewrite <- Hg in H. exact H.
  - unfold sd_len, sd_keys_of. rewrite <- (Permutation_length (inv_perm _ _ HI)), map_length. reflexivity.
  - destruct (items_ok _ _ STO d HI) as (its & H1 & H2 & H3 & H4).
    exists its. repeat split; auto.
    + intro H. unfold value. rewrite <- Hg. apply H4; auto.
    + intro H. apply H4. unfold value in H. rewrite <- Hg in H. exact H.
Qed.

Lemma sorted_dict_errors_lemma : forall (K V : Type) (ltb eqb : K -> K -> bool),
  strict_total_order ltb eqb -> forall (ops : list (sd_op K V)) k v,
  let d := sd_run K V ltb eqb sd_empty ops in
  (fst (sd_set K V ltb eqb d k v) = Ok tt) /\
  (value_after eqb (map as_write ops) k = None -> sd_del K V eqb d k = (Err KeyError, d)) /\
  (value_after eqb (map as_write ops) k <> None -> fst (sd_del K V eqb d k) = Ok tt) /\
  (forall pairs : list (K * V), pairs <> [] -> sd_init pairs = Err AttributeError).
Proof.
  intros K V ltb eqb STO ops k v d.
  destruct (sd_run_ok ltb eqb STO ops) as [HI Hg]. fold d in HI, Hg.
  repeat split.
  - destruct (sd_set_ok _ _ STO d k v HI) as (d' & -> & _). reflexivity.
  - intro H. apply (sd_del_absent eqb). rewrite Hg; auto.
  - intro H. rewrite <- Hg in H. destruct (od_get K V eqb (od d) k) as [v0|] eqn:G; [|congruence].
    destruct (sd_del_present _ _ STO d k v0 HI G) as (ks & -> & _). reflexivity.
  - intros [|p l] H; [congruence|reflexivity].
Qed.

Lemma sid_lookup_lemma : forall (V : Type) (ops : list (sid_op V)),
  let d := sid_run V ops in
  (forall k, sid_get V d (KInterval k) =
     match value_after i_eqb (sid_writes ops) k with Some v => Ok (VOne v) | None => Err KeyError end) /\
  StronglySorted (fun a b => i_ltb a b = true) (sd_keys_of d) /\
  (forall k, In k (sd_keys_of d) <-> exists v, value_after i_eqb (sid_writes ops) k = Some v) /\
  sid_get V d KOther = Err KeyError.
Proof.
  intros V ops d. destruct (sid_run_ok ops) as [HI Hg]. fold d in HI, Hg. repeat split.
  - intro k. cbn. unfold sd_get. rewrite Hg. destruct (value_after _ _ _); reflexivity.
  - apply (inv_sorted _ _ HI).
  - intro H. apply (keys_iff _ _ i_sto _ _ HI) in H. rewrite <- Hg. exact H.
  - intro H. apply (keys_iff _ _ i_sto _ _ HI). rewrite <- Hg in H. exact H.
Qed.

Lemma sid_slice_lemma : forall (V : Type) (ops : list (sid_op V)) (a b : option Z),
  exists d' its, sid_get V (sid_run V ops) (KSlice a b) = Ok (VDict d') /\
    sd_items interval V i_eqb d' = Ok its /\
    StronglySorted (fun x y => i_ltb x y = true) (map fst its) /\
    forall k v, In (k, v) its <->
      value_after i_eqb (sid_writes ops) k = Some v /\ (exists x, in_closed k x /\ in_slice a b x).
Proof.
  intros V ops a b. destruct (sid_run_ok ops) as [HI Hg].
  destruct (sid_slice_ok _ a b HI) as (d' & H1 & HI' & H2).
  destruct (items_ok _ _ i_sto d' HI') as (its & H3 & H4 & _ & H5).
  exists d', its. repeat split; auto.
  - rewrite H4. apply (inv_sorted _ _ HI').
  - rewrite <- Hg. apply H5 in H. apply H2 in H. tauto.
  - apply overlaps_slice_iff. apply H5 in H. apply H2 in H. tauto.
  - intros [Hv Ho]. apply H5, H2. rewrite Hg. split; [auto|]. apply overlaps_slice_iff; auto.
Qed.

Lemma sid_delete_lemma : forall (V : Type) (ops : list (sid_op V)) k i j,
  let d := sid_run V ops in
  sid_del_interval V d k = (Err AttributeError, d) /\
  snd (sid_del_slice V d i j) = d /\
  ((i < j)%nat -> (i < List.length (sd_keys_of d))%nat -> fst (sid_del_slice V d i j) = Err AttributeError) /\
  is_ok (fst (sid_pop V d k)) = false /\ snd (sid_pop V d k) = d.
Proof.
  intros V ops k i j d. repeat split.
  - unfold sid_del_slice. destruct (firstn _ _); reflexivity.
  - intros H1 H2. unfold sid_del_slice, sd_keys_of in *.
    destruct (firstn _ _) eqn:E; [|reflexivity].
    apply (f_equal (@List.length _)) in E. rewrite firstn_length, skipn_length in E. cbn in E. lia.
  - unfold sid_pop. destruct (sd_get _ _ _ _ _); reflexivity.
  - unfold sid_pop. destruct (sd_get _ _ _ _ _); reflexivity.
Qed.
