(** Names of loaded instruments. *)
From Coq Require Import Lia Arith.
From Verif Require Import PyBase L_Base M_Load S_Load L_Load L_Load2 L_Load3 L_Load4.
Open Scope Z_scope.

Definition grows (tr : Z) (s s' : lstate) : Prop :=
  l_names s' = l_names s /\
  (forall k, inst_of s k <> None -> inst_of s' k <> None) /\
  (forall k ins, inst_of s' k = Some ins ->
     (exists i0, inst_of s k = Some i0 /\ pi_name i0 = pi_name ins) \/
     (inst_of s k = None /\ snd k = tr /\ pi_name ins = track_name s tr)).
Lemma grows_same : forall tr s s', l_insts s' = l_insts s -> l_names s' = l_names s -> grows tr s s'.
Proof.
  intros tr s s' I N. split; auto. unfold inst_of. rewrite I. split; auto. intros k ins H. left. eauto.
Qed.
Lemma grows_trans : forall tr a b c, grows tr a b -> grows tr b c -> grows tr a c.
Proof.
  intros tr a b c (N1 & K1 & I1) (N2 & K2 & I2). split; [congruence|]. split; [auto|]. intros k ins H.
  apply I2 in H as [(i0 & H & E)|(H & T & E)].
  - apply I1 in H as [(i1 & H & E')|(H & T & E')]; [left; exists i1; split; congruence|]. right. rewrite <- E. auto.
  - right. split; [|split; auto].
    + destruct (inst_of a k) eqn:A; auto. exfalso. apply (K1 k); congruence.
    + rewrite E. unfold track_name. rewrite N1. reflexivity.
Qed.
Lemma grows_emit : forall dc s prog tr ch n, grows tr s (emit dc s prog tr ch n).
Proof.
  intros. unfold emit. split; [|split].
  - unfold append_note, get_new. destruct (assoc ikey_eqb _ _); [reflexivity|]. destruct (assoc pair_eqb _ _); reflexivity.
  - intros k H. rewrite inst_append, inst_get_new. destruct (inst_of s k); [|congruence]. destruct (ikey_eqb k _); discriminate.
  - intros k ins. rewrite inst_append, inst_get_new. destruct (inst_of s k) as [i0|] eqn:E.
    + left. exists i0. split; auto. destruct (ikey_eqb k _); simpl in H; injection H as <-; reflexivity.
    + destruct (ikey_eqb_spec (prog ch, ch, tr) k) as [<-|Ne].
      * intros H. right. split; auto. split; auto. destruct (ikey_eqb _ _); simpl in H; injection H as <-; reflexivity.
      * intros H. destruct (ikey_eqb k _); discriminate H.
Qed.

Definition rename1 (tr : Z) (m : msg) (s : lstate) : string :=
  match m with MName n => n | _ => track_name s tr end.
Lemma grows_finish : forall dc prog tr t eos s o, grows tr s (fst (finish_notes dc prog tr t eos s o)).
Proof.
  intros. apply finish_inv with (Q := grows tr s); [|apply grows_same; auto].
  intros s1 c k l n _ G. eapply grows_trans; [exact G|apply grows_emit].
Qed.
Lemma grows_off : forall dc prog tr t ch n s o, grows tr s (fst (note_off dc prog tr t ch n s o)).
Proof.
  intros. apply off_inv with (Q := grows tr s); [|apply grows_same; auto].
  intros s1 l x _ G. eapply grows_trans; [exact G|apply grows_emit].
Qed.
(** One event. *)
Lemma step_names : forall dc tr s o prog t m,
  let s' := fst (fst (step dc tr (s, o, prog) (t, m))) in
  track_name s' tr = rename1 tr m s /\
  (forall k, inst_of s k <> None -> inst_of s' k <> None) /\
  (forall k ins, inst_of s' k = Some ins ->
     (exists i0, inst_of s k = Some i0 /\ pi_name i0 = pi_name ins) \/
     (inst_of s k = None /\ snd k = tr /\ pi_name ins = track_name s tr)).
Proof.
  intros dc tr s o prog t m. cbv zeta.
  assert (G : forall s', grows tr s s' -> track_name s' tr = track_name s tr /\
    (forall k, inst_of s k <> None -> inst_of s' k <> None) /\
    (forall k ins, inst_of s' k = Some ins ->
     (exists i0, inst_of s k = Some i0 /\ pi_name i0 = pi_name ins) \/
     (inst_of s k = None /\ snd k = tr /\ pi_name ins = track_name s tr))).
  { intros s' (N & K & I). split; [unfold track_name; rewrite N; auto|]. auto. }
  destruct m; cbn [step rename1].
  - cbn [fst]. split; [unfold track_name; cbn [l_names]; rewrite assoc_cons, Z.eqb_refl; reflexivity|].
    split; [auto|]. intros k ins H. left. exists ins. auto.
  - apply G. apply grows_same; auto.
  - destruct (0 <? velocity).
    + pose proof (grows_finish dc prog tr t false s o) as X. destruct (finish_notes dc prog tr t false s o). apply G. exact X.
    + pose proof (grows_off dc prog tr t ch note s o) as X. destruct (note_off dc prog tr t ch note s o). apply G. exact X.
  - pose proof (grows_off dc prog tr t ch note s o) as X. destruct (note_off dc prog tr t ch note s o). apply G. exact X.
  - apply G. pose proof (get_cell_insts s (prog ch) ch tr) as X.
    assert (Y : l_names (fst (get_cell s (prog ch) ch tr)) = l_names s)
      by (unfold get_cell; destruct (assoc ikey_eqb _ _); auto; destruct (assoc pair_eqb _ _); auto).
    destruct (get_cell s (prog ch) ch tr). apply grows_same; [exact X|exact Y].
  - apply G. pose proof (get_cell_insts s (prog ch) ch tr) as X.
    assert (Y : l_names (fst (get_cell s (prog ch) ch tr)) = l_names s)
      by (unfold get_cell; destruct (assoc ikey_eqb _ _); auto; destruct (assoc pair_eqb _ _); auto).
    destruct (get_cell s (prog ch) ch tr). apply grows_same; [exact X|exact Y].
  - pose proof (grows_finish dc prog tr t true s o) as X. destruct (finish_notes dc prog tr t true s o). apply G. exact X.
  - apply G. apply grows_same; auto.
Qed.

(** The name in force after some events of a track. *)
Lemma latest_name_snoc : forall l t m, latest_name (l ++ [(t, m)]) = match m with MName n => n | _ => latest_name l end.
Proof.
  intros l t m. unfold latest_name. rewrite fold_left_app. reflexivity.
Qed.
Lemma run_names : forall dc tr evs s, track_name s tr = EmptyString ->
  let s' := load_track dc s tr evs in
  track_name s' tr = latest_name evs /\
  (forall pr ch ins, inst_of s (pr, ch, tr) = None -> inst_of s' (pr, ch, tr) = Some ins ->
     exists l1 e l2, evs = l1 ++ e :: l2 /\ inst_of (load_track dc s tr l1) (pr, ch, tr) = None /\
       inst_of (load_track dc s tr (l1 ++ [e])) (pr, ch, tr) <> None /\ pi_name ins = latest_name l1).
Proof.
  intros dc tr evs s E0. induction evs as [|[t m] evs IH] using rev_ind.
  - cbn. split; auto. intros; congruence.
  - cbv zeta in *. destruct IH as [IN IH]. unfold load_track in *. rewrite fold_left_app. cbn [fold_left].
    destruct (fold_left (step dc tr) evs (s, [], fun _ => 0)) as [[s1 o1] p1] eqn:F. cbn [fst] in IN, IH.
    destruct (step_names dc tr s1 o1 p1 t m) as (A & B & C). split.
    + rewrite A, latest_name_snoc. unfold rename1. destruct m; auto.
    + intros pr ch ins N H. destruct (C _ _ H) as [(i0 & H0 & En)|(H0 & _ & En)].
      * destruct (IH pr ch i0 N H0) as (l1 & e & l2 & -> & X1 & X2 & X3). exists l1, e, (l2 ++ [(t, m)]).
        split; [rewrite <- app_assoc; reflexivity|]. split; [exact X1|]. split; [exact X2|congruence].
      * exists evs, (t, m), []. split; auto. rewrite fold_left_app, F. cbn [fold_left fst]. split; auto. split; [congruence|].
        rewrite En. exact IN.
Qed.
Lemma other_track : forall dc tr evs s k, snd k <> tr -> 
  inst_of (load_track dc s tr evs) k = inst_of s k.
Proof.
  intros dc tr evs s k Ne. unfold load_track. apply step_inv with (P := fun x => inst_of x k = inst_of s k); auto.
  - intros s0 prog ch n H. unfold emit. rewrite inst_append, inst_get_new, H.
    destruct (ikey_eqb_spec k (prog ch, ch, tr)) as [->|_]; [exfalso; apply Ne; reflexivity|].
    destruct (inst_of s k); auto. destruct (ikey_eqb_spec (prog ch, ch, tr) k) as [<-|_]; auto. exfalso; apply Ne; reflexivity.
  - intros s0 s1 I H. unfold inst_of in *. rewrite I. exact H.
Qed.
Lemma other_name : forall dc tr evs s tr', tr' <> tr -> track_name (load_track dc s tr evs) tr' = track_name s tr'.
Proof.
  intros dc tr evs s tr' Ne. unfold load_track.
  assert (G : forall l s o p, track_name (fst (fst (fold_left (step dc tr) l (s, o, p)))) tr' = track_name s tr'); [|apply G].
  induction l as [|[t m] l IH]; intros s0 o p; auto. cbn [fold_left].
  assert (E : track_name (fst (fst (step dc tr (s0, o, p) (t, m)))) tr' = track_name s0 tr').
  { destruct m; cbn [step]; auto.
    - unfold track_name. cbn [fst l_names]. rewrite assoc_cons. destruct (Z.eqb_spec tr tr'); [congruence|reflexivity].
    - destruct (0 <? velocity).
      + pose proof (grows_finish dc p tr t false s0 o) as (X & _). destruct (finish_notes dc p tr t false s0 o). cbn [fst] in *. unfold track_name; rewrite X; auto.
      + pose proof (grows_off dc p tr t ch note s0 o) as (X & _). destruct (note_off dc p tr t ch note s0 o). cbn [fst] in *. unfold track_name; rewrite X; auto.
    - pose proof (grows_off dc p tr t ch note s0 o) as (X & _). destruct (note_off dc p tr t ch note s0 o). cbn [fst] in *. unfold track_name; rewrite X; auto.
    - assert (Y : l_names (fst (get_cell s0 (p ch) ch tr)) = l_names s0)
        by (unfold get_cell; destruct (assoc ikey_eqb _ _); auto; destruct (assoc pair_eqb _ _); auto).
      destruct (get_cell s0 (p ch) ch tr). cbn [fst] in *. unfold track_name. cbn [in_cell l_names]. rewrite Y; auto.
    - assert (Y : l_names (fst (get_cell s0 (p ch) ch tr)) = l_names s0)
        by (unfold get_cell; destruct (assoc ikey_eqb _ _); auto; destruct (assoc pair_eqb _ _); auto).
      destruct (get_cell s0 (p ch) ch tr). cbn [fst] in *. unfold track_name. cbn [in_cell l_names]. rewrite Y; auto.
    - pose proof (grows_finish dc p tr t true s0 o) as (X & _). destruct (finish_notes dc p tr t true s0 o). cbn [fst] in *. unfold track_name; rewrite X; auto. }
  destruct (step dc tr (s0, o, p) (t, m)) as [[s1 o1] p1]. rewrite IH. exact E.
Qed.
Lemma tracks_snd : forall dc l s tr k, snd k < tr -> inst_of (load_tracks dc s tr l) k = inst_of s k.
Proof.
  induction l as [|e l IH]; intros s tr k H; cbn; auto. rewrite IH by lia. apply other_track; lia.
Qed.
Lemma tracks_pre : forall dc l s tr k, (snd k < tr \/ tr + Z.of_nat (List.length l) <= snd k) -> inst_of (load_tracks dc s tr l) k = inst_of s k.
Proof.
  induction l as [|e l IH]; intros s tr k H; auto. cbn [load_tracks]. cbn [List.length] in H. rewrite IH by lia. apply other_track; lia.
Qed.
Lemma names_pre : forall dc l s tr j, tr + Z.of_nat (List.length l) <= j -> track_name (load_tracks dc s tr l) j = track_name s j.
Proof.
  induction l as [|e l IH]; intros s tr j H; auto. cbn [load_tracks]. cbn [List.length] in H. rewrite IH by lia. apply other_name; lia.
Qed.
Lemma load_tracks_app : forall dc a b s tr, load_tracks dc s tr (a ++ b) = load_tracks dc (load_tracks dc s tr a) (tr + Z.of_nat (List.length a)) b.
Proof.
  induction a as [|e a IH]; intros b s tr; [cbn [app load_tracks List.length]; rewrite Z.add_0_r; reflexivity|].
  cbn [app load_tracks]. rewrite IH. f_equal. cbn [List.length]. lia.
Qed.
Lemma latest_abs : forall l t, latest_name (to_abs t l) = latest_name l.
Proof.
  intros l t. unfold latest_name. revert t. generalize EmptyString. induction l as [|[d m] l IH]; intros n t; auto. cbn [to_abs fold_left snd]. apply IH.
Qed.
Lemma abs_split : forall l1 e l2 l t, to_abs t l = l1 ++ e :: l2 -> exists d1 d d2, l = d1 ++ d :: d2 /\ to_abs t d1 = l1 /\ to_abs t (d1 ++ [d]) = l1 ++ [e].
Proof.
  induction l1 as [|x l1 IH]; intros e l2 l t H; destruct l as [|[d m] l]; try discriminate H; cbn in H.
  - injection H as He Hl. subst e. exists [], (d, m), l. split; auto.
  - injection H as <- H. destruct (IH _ _ _ _ H) as (d1 & d0 & d2 & -> & A & B). exists ((d, m) :: d1), d0, d2. split; auto.
    cbn. rewrite A, B. auto.
Qed.
Lemma last_track : forall dc pre tk s0, load_tracks dc s0 0 (map (to_abs 0) (pre ++ [tk])) =
  load_track dc (load_tracks dc s0 0 (map (to_abs 0) pre)) (Z.of_nat (List.length pre)) (to_abs 0 tk).
Proof. intros. rewrite map_app, load_tracks_app, map_length, Z.add_0_l. reflexivity. Qed.

Lemma names_file : forall dc pre tk post pr ch ins,
  inst_of (load_file dc (pre ++ tk :: post)) (pr, ch, Z.of_nat (List.length pre)) = Some ins ->
  exists l1 e l2, tk = l1 ++ e :: l2 /\
    inst_of (load_file dc (pre ++ [l1])) (pr, ch, Z.of_nat (List.length pre)) = None /\
    inst_of (load_file dc (pre ++ [l1 ++ [e]])) (pr, ch, Z.of_nat (List.length pre)) <> None /\
    pi_name ins = latest_name l1.
Proof.
  intros dc pre tk post pr ch ins H. unfold load_file in *.
  replace (pre ++ tk :: post) with ((pre ++ [tk]) ++ post) in H by (rewrite <- app_assoc; reflexivity).
  rewrite map_app, load_tracks_app, map_length, app_length in H. cbn [List.length] in H.
  rewrite tracks_snd in H by (cbn [snd]; lia). rewrite last_track in H.
  set (s := load_tracks dc l_empty 0 (map (to_abs 0) pre)) in *.
  set (i := Z.of_nat (List.length pre)) in *.
  assert (N0 : track_name s i = EmptyString) by (unfold s; rewrite names_pre; [reflexivity|rewrite map_length; subst i; lia]).
  assert (I0 : inst_of s (pr, ch, i) = None).
  { unfold s. rewrite tracks_pre; [reflexivity|]. right. rewrite map_length. cbn [snd]. subst i; lia. }
  destruct (run_names dc i (to_abs 0 tk) s N0) as [_ R]. destruct (R pr ch ins I0 H) as (l1 & e & l2 & E & A & B & C).
  destruct (abs_split _ _ _ _ _ E) as (d1 & d & d2 & -> & D1 & D2). exists d1, d, d2. split; auto. rewrite !last_track.
  fold s. fold i. rewrite D1, D2. split; auto. split; auto. rewrite C, <- D1. apply latest_abs.
Qed.
