From Coq Require Import Lia Lqa Sorted Permutation.
From Verif Require Import PyBase L_Base L_Sort M_Interval M_SortedDict S_Interval L_SortedDict M_Note M_Events M_Seq M_Seqs S_Seq S_Seqs L_Note L_Seq L_Events.
Open Scope Z_scope.

Lemma zsto : strict_total_order Z.ltb Z.eqb.
Proof.
  constructor.
  - intros a b. apply Z.eqb_eq.
  - intros a. apply Z.ltb_irrefl.
  - intros a b c H K. apply Z.ltb_lt in H, K. apply Z.ltb_lt. lia.
  - intros a b. destruct (Z.lt_trichotomy a b) as [H|[H|H]]; [left|right; left|right; right]; auto; apply Z.ltb_lt; auto.
Qed.
Definition tinv (s : mseqs) : Prop := Inv Z.ltb (m_tracks s).
Lemma trk_put : forall s k q, tinv s -> tinv (put_track s k q) /\
  forall k', trk (put_track s k q) k' = if k =? k' then Some q else trk s k'.
Proof.
  intros s k q I. unfold put_track, trk, tinv in *. cbn [m_tracks].
  destruct (sd_set_ok Z.ltb Z.eqb zsto (m_tracks s) k q I) as [d' [E [I' G]]]. rewrite E. auto.
Qed.
Lemma reg_put_track : forall s k q k', reg (put_track s k q) k' = reg s k'.
Proof. reflexivity. Qed.
Lemma trk_put_reg : forall s k j k', trk (put_reg s k j) k' = trk s k'.
Proof. reflexivity. Qed.
Lemma tinv_put_reg : forall s k j, tinv s -> tinv (put_reg s k j).
Proof. auto. Qed.
Lemma reg_put_reg : forall s k j k', reg (put_reg s k j) k' = if k =? k' then Some j else reg s k'.
Proof. intros. unfold reg, put_reg. cbn [m_idx]. apply (get_set Z.ltb Z.eqb zsto). Qed.
Lemma get_map_upd : forall l k k' (q : seq), od_get Z seq Z.eqb l k <> None ->
  od_get Z seq Z.eqb (map (fun p => if fst p =? k then (fst p, q) else p) l) k' =
  if k =? k' then Some q else od_get Z seq Z.eqb l k'.
Proof.
  induction l as [|[a b] l IH]; intros k k' q H; simpl in *; [congruence|].
  destruct (Z.eqb_spec a k) as [->|N]; simpl.
  - destruct (Z.eqb_spec k k'); auto. clear - n. induction l as [|[a b'] l IH]; simpl; auto.
    destruct (Z.eqb_spec a k) as [->|N]; simpl.
    + rewrite (proj2 (Z.eqb_neq k k') n). auto.
    + destruct (a =? k'); auto.
  - rewrite IH by auto. destruct (Z.eqb_spec a k') as [->|N']; auto. rewrite (proj2 (Z.eqb_neq k k')); auto.
Qed.
Lemma trk_mutate : forall s k o, tinv s -> tinv (ms_mutate s k o) /\
  (forall j, reg (ms_mutate s k o) j = reg s j) /\
  forall k', trk (ms_mutate s k o) k' = match trk s k with Some q => if k =? k' then Some (snd (q_do q o)) else trk s k' | None => trk s k' end.
Proof.
  intros s k o I. unfold ms_mutate. destruct (trk s k) as [q|] eqn:E; [|auto].
  split; [|split; [reflexivity|]].
  - destruct I as [ND P S]. split; cbn [m_tracks od sd_keys] in *; auto.
    + rewrite map_map. erewrite map_ext; [exact ND|]. intros [a b]; simpl. destruct (a =? k); auto.
    + rewrite map_map. erewrite map_ext; [exact P|]. intros [a b]; simpl. destruct (a =? k); auto.
  - intro k'. unfold trk in *. cbn [m_tracks od]. apply get_map_upd. congruence.
Qed.
Lemma tinv_do : forall s o, tinv s -> tinv (ms_do s o).
Proof.
  intros s o I. destruct o; cbn [ms_do].
  - unfold ms_getitem. destruct ((i <? 0) || (128 <=? i)); auto. destruct (reg s i) as [j|].
    + destruct (trk s j); auto. + cbn [snd]. apply trk_put. exact I.
  - unfold ms_setitem. destruct ((i <? 0) || (128 <=? i)); auto. cbn [snd]. apply trk_put; auto.
  - unfold ms_setitem_notes, ms_setitem. destruct ((i <? 0) || (128 <=? i)); auto. cbn [snd]. apply trk_put; auto.
  - unfold ms_create. destruct (negb _); auto. destruct (reg s i); auto. destruct (i_new _ _ _ _); auto. cbn [snd]. apply trk_put; auto.
  - unfold ms_get_track. destruct ((i <? 0) || (128 <=? i)); auto. destruct (trk s i) eqn:T; [rewrite T; auto|].
    unfold ms_create. destruct (negb _); auto. destruct (reg s i); auto.
    + rewrite T. auto.
    + destruct (i_new _ _ _ _); auto. match goal with |- context [match ?x with Some _ => _ | None => _ end] => destruct x end; cbn [snd]; exact (proj1 (trk_put _ _ _ I)).
  - apply trk_put; auto.
  - apply trk_mutate; auto.
Qed.
Lemma tinv_empty : forall r, tinv (ms_empty r).
Proof. intro r. apply inv_empty. Qed.
Lemma tinv_run : forall ops s, tinv s -> tinv (ms_run s ops).
Proof. induction ops as [|o ops IH]; intros s I; auto. simpl. apply IH. apply tinv_do; auto. Qed.

(** ** C32 *)
Lemma fresh_new : forall i r ins, i_num ins = i -> fresh_seq i r (q_new [] ins r).
Proof. intros i r ins <-. unfold fresh_seq, q_new, q_notes; simpl. destruct (i_drum ins); repeat split; auto. Qed.
Lemma i_new_ok : forall p name drum, 0 <= p < 128 -> exists ins, i_new instrument_families p name drum = Ok ins /\ i_num ins = p /\ i_drum ins = drum.
Proof.
  intros p name drum H. unfold i_new. replace ((0 <=? p) && (p <=? 255)) with true by (symmetry; apply andb_true_intro; split; apply Z.leb_le; lia).
  cbn [negb]. eexists; split; [reflexivity|]. cbn. split; auto. unfold clamp255. lia.
Qed.
Lemma range_ok : forall p, 0 <= p < 128 -> (0 <=? p) && (p <? 128) = true.
Proof. intros. apply andb_true_intro; split; [apply Z.leb_le|apply Z.ltb_lt]; lia. Qed.
Lemma range_idx : forall i, 0 <= i < 128 -> (i <? 0) || (128 <=? i) = false.
Proof. intros. apply orb_false_iff; split; [apply Z.ltb_ge|apply Z.leb_gt]; lia. Qed.
Lemma range_bad : forall i, ~ (0 <= i < 128) -> (i <? 0) || (128 <=? i) = true.
Proof. intros. apply orb_true_iff. destruct (Z.ltb_spec i 0); auto. right. apply Z.leb_le. lia. Qed.
Lemma create_spec : forall res ops i program name drum,
  let s := ms_run (ms_empty res) ops in
  (~ 0 <= program < 128 -> ms_create s i program name drum = (Err ValueError, s)) /\
  (forall j, 0 <= program < 128 -> reg s i = Some j -> ms_create s i program name drum = (Ok j, s)) /\
  (0 <= program < 128 -> reg s i = None ->
     exists q s', ms_create s i program name drum = (Ok i, s') /\ fresh_seq program (m_res s) q /\ i_drum (q_instr q) = drum /\
       trk s' i = Some q /\ (forall k, k <> i -> trk s' k = trk s k) /\
       (0 <= i < 128 -> forall n p d, ms_get_track s' i n p d = (Ok q, s'))).
Proof.
  intros res ops i program name drum s. assert (I : tinv s) by (apply tinv_run, tinv_empty).
  unfold ms_create. split; [|split].
  - intro H. destruct ((0 <=? program) && (program <? 128)) eqn:E; auto.
    apply andb_true_iff in E as [E1 E2]. apply Z.leb_le in E1. apply Z.ltb_lt in E2. lia.
  - intros j H R. rewrite range_ok by auto. cbn [negb]. rewrite R. auto.
  - intros H R. rewrite range_ok by auto. cbn [negb]. rewrite R.
    destruct (i_new_ok program name drum H) as [ins [-> [Hn Hd]]].
    set (q := q_new [] ins (m_res s)). exists q. eexists; split; [reflexivity|].
    split; [apply fresh_new; auto|]. split; auto.
    destruct (trk_put s i q I) as [_ T].
    assert (Ti : trk (put_reg (put_track s i q) i i) i = Some q) by (rewrite trk_put_reg, T, Z.eqb_refl; auto).
    split; auto. split.
    + intros k N. rewrite trk_put_reg, T. rewrite (proj2 (Z.eqb_neq i k)); auto.
    + intros Hi n p d. unfold ms_get_track. rewrite range_idx by auto. rewrite Ti. rewrite Ti. auto.
Qed.
Definition rinv (s : mseqs) : Prop := forall k j, reg s k = Some j -> j = k /\ trk s k <> None.
Lemma trk_do_mono : forall s o k, tinv s -> trk s k <> None -> trk (ms_do s o) k <> None.
Proof.
  intros s o k I H.
  assert (PP : forall a q, trk (put_track s a q) k <> None).
  { intros a q. destruct (trk_put s a q I) as [_ T]. rewrite T. destruct (a =? k); congruence. }
  assert (PR : forall a b j q, trk (put_track (put_reg s a b) j q) k <> None).
  { intros a b j q. destruct (trk_put (put_reg s a b) j q I) as [_ T]. rewrite T. destruct (j =? k); auto; congruence. }
  assert (CR : forall i p n d, trk (snd (ms_create s i p n d)) k <> None).
  { intros i p n d. unfold ms_create. destruct (negb _); auto. destruct (reg s i); auto. destruct (i_new _ _ _ _); auto.
    cbn [snd]. rewrite trk_put_reg. apply PP. }
  destruct o; cbn [ms_do].
  - unfold ms_getitem. destruct ((i <? 0) || (128 <=? i)); auto. destruct (reg s i) as [j|]; [destruct (trk s j); auto|]. apply PR.
  - unfold ms_setitem. destruct ((i <? 0) || (128 <=? i)); auto. apply PP.
  - unfold ms_setitem_notes, ms_setitem. destruct ((i <? 0) || (128 <=? i)); auto. apply PP.
  - apply CR.
  - unfold ms_get_track. destruct ((i <? 0) || (128 <=? i)); auto. destruct (trk s i) eqn:T; [rewrite T; auto|].
    specialize (CR i program name drum). destruct (ms_create s i program name drum) as [[r|e] s1]; cbn [snd] in *; auto.
    destruct (trk s1 i); auto.
  - apply PP.
  - destruct (trk_mutate s k0 o I) as [_ [_ T]]. rewrite T. destruct (trk s k0); auto. destruct (k0 =? k); congruence.
Qed.
Lemma rinv_create : forall s i p n d, tinv s -> rinv s -> rinv (snd (ms_create s i p n d)).
Proof.
  intros s i p n d I R. unfold ms_create. destruct (negb _); auto. destruct (reg s i) eqn:E; auto. destruct (i_new _ _ _ _) as [ins|]; auto.
  cbn [snd]. intros k j. rewrite reg_put_reg, reg_put_track, trk_put_reg.
  destruct (trk_put s i (q_new [] ins (m_res s)) I) as [_ T]. rewrite T.
  destruct (Z.eqb_spec i k) as [->|N]; [intros [= <-]; split; auto; congruence|]. apply R.
Qed.
Lemma rinv_put : forall s k q, tinv s -> rinv s -> rinv (put_track s k q).
Proof.
  intros s k q I R a j. rewrite reg_put_track. intro H. destruct (R a j H) as [-> H2]. split; auto.
  destruct (trk_put s k q I) as [_ T]. rewrite T. destruct (k =? a); congruence.
Qed.
Lemma rinv_do : forall s o, no_subscript o -> tinv s -> rinv s -> rinv (ms_do s o).
Proof.
  intros s o N I R. destruct o; cbn [ms_do].
  - destruct N.
  - unfold ms_setitem. destruct ((i <? 0) || (128 <=? i)); auto. apply rinv_put; auto.
  - unfold ms_setitem_notes, ms_setitem. destruct ((i <? 0) || (128 <=? i)); auto. apply rinv_put; auto.
  - apply rinv_create; auto.
  - unfold ms_get_track. destruct ((i <? 0) || (128 <=? i)); auto. destruct (trk s i) eqn:T; [rewrite T; auto|].
    pose proof (rinv_create s i program name drum I R) as H.
    destruct (ms_create s i program name drum) as [[r|e] s1]; cbn [snd] in *; auto.
    destruct (trk s1 i); auto.
  - apply rinv_put; auto.
  - destruct (trk_mutate s k o I) as [_ [G T]]. intros a j. rewrite G. intro H. destruct (R a j H) as [-> H2]. split; auto.
    rewrite T. destruct (trk s k); auto. destruct (k =? a); congruence.
Qed.
Lemma rinv_run : forall ops s, Forall no_subscript ops -> tinv s -> rinv s -> rinv (ms_run s ops).
Proof.
  induction ops as [|o ops IH]; intros s F I R; auto. inversion F; subst. simpl. apply IH; auto. - apply tinv_do; auto. - apply rinv_do; auto.
Qed.
Lemma get_track_spec : forall res ops i name program drum, Forall no_subscript ops ->
  let s := ms_run (ms_empty res) ops in
  0 <= i < 128 -> 0 <= program < 128 ->
  exists q s', ms_get_track s i name program drum = (Ok q, s') /\ trk s' i = Some q /\
    (forall k, k <> i -> trk s' k = trk s k) /\
    (forall q0, trk s i = Some q0 -> q = q0 /\ s' = s) /\
    (trk s i = None -> fresh_seq program (m_res s) q).
Proof.
  intros res ops i name program drum F s Hi Hp. assert (I : tinv s) by (apply tinv_run, tinv_empty).
  assert (R : rinv s). { apply rinv_run; auto. apply tinv_empty. intros k j H. discriminate. }
  unfold ms_get_track. rewrite range_idx by auto. destruct (trk s i) as [q0|] eqn:T.
  - rewrite T. exists q0, s. split; auto. split; auto. split; auto. split; [intros q1 [= <-]; auto|discriminate].
  - assert (G : reg s i = None). { destruct (reg s i) as [j|] eqn:G; auto. apply R in G as [_ X]. contradiction. }
    destruct (create_spec res ops i program name drum) as [_ [_ C]].
    destruct (C Hp G) as [q [s' [E [Fr [_ [T1 [T2 _]]]]]]]. fold s in E. rewrite E, T1. exists q, s'.
    split; auto. split; auto. split; auto. split; [discriminate|auto].
Qed.
Lemma subscript_spec : forall res ops i,
  let s := ms_run (ms_empty res) ops in
  (~ 0 <= i < 128 -> ms_getitem s i = (Err ValueError, s)) /\
  (forall j q, 0 <= i < 128 -> reg s i = Some j -> trk s j = Some q -> ms_getitem s i = (Ok q, s)) /\
  (0 <= i < 128 -> reg s i = None ->
    let n := Z.of_nat (List.length (sd_keys (m_tracks s))) in
    exists q s', ms_getitem s i = (Ok q, s') /\ fresh_seq i (m_res s) q /\
      trk s' n = Some q /\ (forall k, k <> n -> trk s' k = trk s k) /\
      (n <> i -> trk s i = None -> forall nm p d, 0 <= p < 128 -> ms_get_track s' i nm p d = (Err KeyError, s'))).
Proof.
  intros res ops i s. assert (I : tinv s) by (apply tinv_run, tinv_empty).
  unfold ms_getitem. split; [|split].
  - intro H. rewrite range_bad by auto. auto.
  - intros j q H -> ->. rewrite range_idx by auto. auto.
  - intros H G. rewrite range_idx by auto. rewrite G. cbv zeta.
    assert (L : sd_len (m_tracks s) = List.length (sd_keys (m_tracks s))).
    { unfold sd_len. rewrite <- (Permutation_length (inv_perm _ _ I)). rewrite map_length. auto. }
    rewrite L. set (n := Z.of_nat (List.length (sd_keys (m_tracks s)))).
    set (q := q_new [] (mkI i "Instrument 0" false) (m_res s)). exists q. eexists; split; [reflexivity|].
    split; [apply fresh_new; auto|].
    destruct (trk_put (put_reg s i n) n q I) as [_ T]. rewrite T, Z.eqb_refl. split; auto.
    assert (T' : forall k, k <> n -> trk (put_track (put_reg s i n) n q) k = trk s k).
    { intros k N. rewrite T. rewrite (proj2 (Z.eqb_neq n k)); auto. }
    split; auto. intros N Ti nm p d Hp. unfold ms_get_track. rewrite range_idx by auto. rewrite T' by auto. rewrite Ti.
    unfold ms_create. rewrite range_ok by auto. cbn [negb]. rewrite reg_put_track, reg_put_reg, Z.eqb_refl.
    rewrite T' by auto. rewrite Ti. auto.
Qed.
Lemma setitem_spec : forall res ops i q,
  let s := ms_run (ms_empty res) ops in
  (~ 0 <= i < 128 -> ms_setitem s i q = (Err ValueError, s)) /\
  (0 <= i < 128 -> exists s', ms_setitem s i q = (Ok tt, s') /\ trk s' i = Some q /\ (forall k, k <> i -> trk s' k = trk s k) /\
     (forall nm p d, ms_get_track s' i nm p d = (Ok q, s')) /\
     (reg s i = Some i -> ms_getitem s' i = (Ok q, s')) /\
     (reg s i = None -> exists q' s'', ms_getitem s' i = (Ok q', s'') /\ fresh_seq i (m_res s) q')).
Proof.
  intros res ops i q s. assert (I : tinv s) by (apply tinv_run, tinv_empty).
  unfold ms_setitem. split.
  - intro H. rewrite range_bad by auto. auto.
  - intro H. rewrite range_idx by auto. eexists; split; [reflexivity|]. destruct (trk_put s i q I) as [_ T].
    assert (Ti : trk (put_track s i q) i = Some q) by (rewrite T, Z.eqb_refl; auto).
    split; auto. split; [intros k N; rewrite T, (proj2 (Z.eqb_neq i k)); auto|]. split; [|split].
    + intros nm p d. unfold ms_get_track. rewrite range_idx by auto. rewrite Ti, Ti. auto.
    + intro R. unfold ms_getitem. rewrite range_idx by auto. rewrite reg_put_track, R, Ti. auto.
    + intro R. unfold ms_getitem. rewrite range_idx by auto. rewrite reg_put_track, R. do 2 eexists; split; [reflexivity|].
      apply fresh_new; auto.
Qed.
Lemma from_notes_spec : forall l, q_notes (q_from_notes l) = l /\ latest_end l (q_total (q_from_notes l)) /\
  i_num (q_instr (q_from_notes l)) = 0.
Proof.
  intro l. unfold q_from_notes. rewrite notes_adjust, notes_set_notes. split; auto. split; auto.
  cbn [q_adjust q_set_total q_total]. rewrite notes_set_notes. apply max_end_latest.
Qed.

(** ** C35 *)
Definition numbered (k : Z) (l : list seq) : list seq := filter (fun q => i_num (q_instr q) =? k) l.
Record linv (l : list seq) (s : mseqs) : Prop := mkLinv {
  li_t : tinv s;
  li_reg : forall k j, reg s k = Some j -> j = k;
  li_iff : forall k, reg s k = None <-> trk s k = None;
  li_none : forall k, trk s k = None <-> (forall q, In q l -> i_num (q_instr q) <> k);
  li_notes : forall k t, trk s k = Some t -> i_num (q_instr t) = k /\
     Permutation (q_notes t) (List.concat (map q_notes (numbered k l))) /\
     (forall q, In q (numbered k l) -> q_instr q = q_instr t /\ q_res q = q_res t) }.
Lemma numbered_app : forall k a b, numbered k (a ++ b) = numbered k a ++ numbered k b.
Proof. intros. apply filter_app. Qed.
Lemma numbered_In : forall k l q, In q (numbered k l) <-> In q l /\ i_num (q_instr q) = k.
Proof. intros. unfold numbered. rewrite filter_In, Z.eqb_eq. reflexivity. Qed.
Lemma notes_concat_In : forall k l n, In n (List.concat (map q_notes (numbered k l))) <-> exists q, In q l /\ i_num (q_instr q) = k /\ In n (q_notes q).
Proof.
  intros. rewrite in_concat. split.
  - intros [x [Hx Hn]]. apply in_map_iff in Hx as [q [<- Hq]]. apply numbered_In in Hq as [Hq E]. eauto.
  - intros [q [Hq [E Hn]]]. exists (q_notes q). split; auto. apply in_map. apply numbered_In; auto.
Qed.
Lemma numbered_snoc : forall k l q, numbered k (l ++ [q]) = numbered k l ++ (if i_num (q_instr q) =? k then [q] else []).
Proof. intros. rewrite numbered_app. f_equal. Qed.
Lemma add_seq_step : forall l s q, linv l s ->
  ((forall a, In a l -> i_num (q_instr a) = i_num (q_instr q) -> mergeable a q) ->
     exists s', ms_add_seq s q = Ok s' /\ linv (l ++ [q]) s') /\
  ((exists a, In a l /\ i_num (q_instr a) = i_num (q_instr q) /\ ~ mergeable a q) -> ms_add_seq s q = Err ValueError).
Proof.
  intros l s q I. destruct I as [It Ir Ii In_ Io]. set (k := i_num (q_instr q)). unfold ms_add_seq. fold k.
  assert (NN : forall s' k', (forall x, trk s' x = if k =? x then (if k =? x then trk s' x else None) else trk s x) ->
     k <> k' -> trk s' k' = trk s k').
  { intros s' k' H N. rewrite H. rewrite (proj2 (Z.eqb_neq k k')); auto. }
  destruct (reg s k) as [j|] eqn:R.
  - apply Ir in R as E. subst j. destruct (trk s k) as [t|] eqn:T.
    2:{ exfalso. apply Ii in T. congruence. }
    destruct (Io k t T) as [Tn [Tp Ti]].
    assert (Ex : exists a, In a (numbered k l)).
    { destruct (numbered k l) as [|a r] eqn:E; [|exists a; left; auto]. exfalso.
      assert (trk s k = None); [|congruence]. apply In_. intros a Ha Ea.
      assert (In a (numbered k l)) by (apply numbered_In; auto). rewrite E in H. destruct H. }
    destruct (merge_spec t q) as [M1 M2]. split.
    + intro H.
      assert (OK : q_instr t = q_instr q /\ q_res t = q_res q /\ forall n, In n (q_notes t ++ q_notes q) -> n_instrument n = i_num (q_instr t)).
      { destruct Ex as [a Ha]. destruct (Ti a Ha) as [Ea Eb]. apply numbered_In in Ha as [Ha1 Ha2].
        destruct (H a Ha1 Ha2) as [Ma [Mb Mc]]. split; [congruence|]. split; [congruence|].
        intros n Hn. apply in_app_or in Hn as [Hn|Hn].
        - apply (Permutation_in _ Tp) in Hn. apply notes_concat_In in Hn as [b [Hb [Eb' Hn]]].
          destruct (H b Hb Eb') as [_ [_ Mc']]. rewrite Mc'; [congruence|]. apply in_or_app; auto.
        - rewrite Mc; [congruence|]. apply in_or_app; auto. }
      destruct (M1 OK) as [t' [E [P [_ [Ei [Er _]]]]]]. rewrite E. destruct (trk_put s k t' It) as [It' Tt].
      eexists; split; [reflexivity|]. constructor; auto.
      * intro k'. rewrite reg_put_track, Tt. destruct (Z.eqb_spec k k') as [<-|N]; [split; congruence|apply Ii].
      * intro k'. rewrite Tt. destruct (Z.eqb_spec k k') as [<-|N].
        -- split; [discriminate|]. intro X. exfalso. apply (X q); auto. apply in_or_app; right; left; auto.
        -- rewrite In_. split; intros X a Ha; [|apply X; apply in_or_app; auto].
           apply in_app_or in Ha as [Ha|[<-|[]]]; auto.
      * intros k' t0. rewrite Tt. rewrite numbered_snoc. fold k. destruct (Z.eqb_spec k k') as [<-|N].
        -- intros [= <-]. rewrite Ei. split; auto. split.
           ++ rewrite map_app, concat_app. simpl. rewrite app_nil_r. rewrite P. apply Permutation_app; auto.
           ++ intros a Ha. apply in_app_or in Ha as [Ha|[<-|[]]]; [destruct (Ti a Ha); split; congruence|].
              destruct OK as [O1 [O2 _]]. split; congruence.
        -- rewrite app_nil_r. apply Io.
    + intros [a [Ha [Ea Na]]].
      assert (NO : ~ (q_instr t = q_instr q /\ q_res t = q_res q /\ forall n, In n (q_notes t ++ q_notes q) -> n_instrument n = i_num (q_instr t))).
      { intros [O1 [O2 O3]]. apply Na. destruct (Ti a) as [E1 E2]; [apply numbered_In; auto|].
        split; [congruence|]. split; [congruence|]. intros n Hn. rewrite E1. apply O3.
        apply in_app_or in Hn as [Hn|Hn]; apply in_or_app; auto. left. apply (Permutation_in _ (Permutation_sym Tp)).
        apply notes_concat_In. eauto. }
      rewrite (M2 NO). auto.
  - apply Ii in R as T. split.
    + intros _. destruct (trk_put s k q It) as [It' Tt].
      eexists; split; [reflexivity|]. constructor; auto.
      * intros k' j. rewrite reg_put_reg, reg_put_track. destruct (Z.eqb_spec k k') as [<-|N]; [intros [= <-]; auto|apply Ir].
      * intro k'. rewrite reg_put_reg, reg_put_track, trk_put_reg, Tt. destruct (Z.eqb_spec k k') as [<-|N]; [split; congruence|apply Ii].
      * intro k'. rewrite trk_put_reg, Tt. destruct (Z.eqb_spec k k') as [<-|N].
        -- split; [discriminate|]. intro X. exfalso. apply (X q); auto. apply in_or_app; right; left; auto.
        -- rewrite In_. split; intros X a Ha; [|apply X; apply in_or_app; auto].
           apply in_app_or in Ha as [Ha|[<-|[]]]; auto.
      * intros k' t0. rewrite trk_put_reg, Tt. rewrite numbered_snoc. fold k. destruct (Z.eqb_spec k k') as [<-|N].
        -- intros [= <-]. split; auto.
           assert (E : numbered k l = []).
           { destruct (numbered k l) as [|a r] eqn:E; auto. exfalso. assert (H : In a (numbered k l)) by (rewrite E; left; auto).
             apply numbered_In in H as [Ha Ea]. apply (proj1 (In_ k) T a); auto. }
           rewrite E. simpl. rewrite app_nil_r. split; auto. intros a [<-|[]]; auto.
        -- rewrite app_nil_r. apply Io.
    + intros [a [Ha [Ea _]]]. exfalso. apply (proj1 (In_ k) T a); auto.
Qed.
Lemma linv_empty : forall r, linv [] (ms_empty r).
Proof.
  intro r. constructor; [apply tinv_empty|discriminate|split; auto| |discriminate].
  intro k. split; auto; intros _ q [].
Qed.
Lemma mergeable_dec : forall a b, mergeable a b \/ ~ mergeable a b.
Proof.
  intros a b. destruct (q_merge a b) as [[[]|e] t] eqn:E; destruct (merge_spec a b) as [M1 M2].
  - left. unfold mergeable. 
    destruct (Bool.bool_dec (i_eqb (q_instr a) (q_instr b)) true) as [X|X].
    + apply (proj1 (proj1 (i_eq_hash (fun _ => 0) _ _))) in X. split; auto. unfold q_merge in E. rewrite X in E.
      rewrite (proj2 (proj1 (i_eq_hash (fun _ => 0) (q_instr b) (q_instr b))) eq_refl) in E. cbn [negb orb] in E.
      destruct (Z.eqb_spec (q_res a) (q_res b)) as [R|R]; [|discriminate]. split; auto. cbn [negb] in E.
      destruct (q_validate a) eqn:V1; [|discriminate]. destruct (q_validate b) eqn:V2; [|discriminate].
      unfold q_validate in *. rewrite forallb_forall in V1, V2. intros n Hn. apply in_app_or in Hn as [Hn|Hn].
      * apply Z.eqb_eq. auto. * apply Z.eqb_eq. rewrite X. auto.
    + exfalso. unfold q_merge in E. apply Bool.not_true_is_false in X. rewrite X in E. cbn in E. discriminate.
  - right. intro M. destruct (M1 M) as [t' [E' _]]. congruence.
Qed.
Lemma add_all_spec : forall r l s, linv l s ->
  (same_number_mergeable r -> (forall a q, In a l -> In q r -> i_num (q_instr a) = i_num (q_instr q) -> mergeable a q) ->
     exists s', ms_add_all s r = Ok s' /\ linv (l ++ r) s') /\
  (~ (same_number_mergeable r /\ (forall a q, In a l -> In q r -> i_num (q_instr a) = i_num (q_instr q) -> mergeable a q)) ->
     ms_add_all s r = Err ValueError).
Proof.
  induction r as [|q r IH]; intros l s I.
  - simpl. rewrite app_nil_r. split; [eauto|]. intro H. exfalso. apply H. split; [constructor|intros a q _ []].
  - cbn [ms_add_all]. destruct (add_seq_step l s q I) as [A1 A2]. split.
    + intros M H. inversion M as [|? ? M1 M2]; subst.
      destruct A1 as [s1 [E I1]]; [intros; apply H; auto; left; auto|]. rewrite E. cbn [bind].
      destruct (IH (l ++ [q]) s1 I1) as [B _]. destruct B as [s' [E' I']]; auto.
      { intros a b Ha Hb X. apply in_app_or in Ha as [Ha|[<-|[]]]; [apply H; auto; right; auto|].
        rewrite Forall_forall in M1. apply M1; auto. }
      exists s'. rewrite <- app_assoc in I'. auto.
    + intro N.
      assert (D : (forall a, In a l -> i_num (q_instr a) = i_num (q_instr q) -> mergeable a q) \/
                  (exists a, In a l /\ i_num (q_instr a) = i_num (q_instr q) /\ ~ mergeable a q)).
      { clear - l q. induction l as [|a l IHl]; [left; intros a []|].
        destruct IHl as [L|[b [Hb X]]]; [|right; exists b; split; [right; auto|auto]].
        destruct (Z.eq_dec (i_num (q_instr a)) (i_num (q_instr q))) as [Eq|Ne].
        - destruct (mergeable_dec a q) as [Y|Y]; [left; intros b [<-|Hb]; auto|right; exists a; split; [left; auto|auto]].
        - left. intros b [<-|Hb]; auto; congruence. }
      destruct D as [D|D]; [|rewrite (A2 D); auto].
      destruct (A1 D) as [s1 [E I1]]. rewrite E. cbn [bind]. apply (IH (l ++ [q]) s1 I1).
      intros [M H]. apply N. split.
      * constructor; auto. apply Forall_forall. intros b Hb X. apply H; auto. apply in_or_app; right; left; auto.
      * intros a b Ha [<-|Hb] X; auto. apply H; auto. apply in_or_app; auto.
Qed.
Lemma of_list_spec : forall res l,
  (same_number_mergeable l -> exists s, ms_of_list res l = Ok s /\
     (forall k, trk s k = None <-> (forall q, In q l -> i_num (q_instr q) <> k)) /\
     (forall k t, trk s k = Some t -> i_num (q_instr t) = k /\
        Permutation (q_notes t) (List.concat (map q_notes (filter (fun q => i_num (q_instr q) =? k) l))) /\
        forall q, In q l -> i_num (q_instr q) = k -> q_instr q = q_instr t)) /\
  (~ same_number_mergeable l -> ms_of_list res l = Err ValueError).
Proof.
  intros res l. unfold ms_of_list. destruct (add_all_spec l [] (ms_empty res) (linv_empty res)) as [A B]. split.
  - intro M. destruct A as [s [E I]]; auto. { intros a q []. } exists s. split; auto. simpl in I. destruct I as [It Ir Ii In_ Io].
    split; auto. intros k t T. destruct (Io k t T) as [H1 [H2 H3]]. split; auto. split; auto.
    intros q Hq Eq. apply H3. apply numbered_In; auto.
  - intro N. apply B. intros [M _]. contradiction.
Qed.

(** ** whole-object operations *)
Lemma values_notes : forall s, tinv s -> forall n, In n (ms_events s) <-> exists k q, trk s k = Some q /\ In n (q_notes q).
Proof.
  intros s I n. unfold ms_events. split.
  - intro H. apply (Permutation_in _ (Permutation_sym (py_sort_perm _ _))) in H. apply in_flat_map in H as [q [Hq Hn]].
    unfold ms_values in Hq. apply in_flat_map in Hq as [k [Hk Hq]]. destruct (trk s k) as [q'|] eqn:T; [|destruct Hq].
    destruct Hq as [<-|[]]. eauto.
  - intros [k [q [T Hn]]]. apply (Permutation_in _ (py_sort_perm _ _)). apply in_flat_map. exists q. split; auto.
    unfold ms_values. apply in_flat_map. exists k. rewrite T. split; [|left; auto].
    apply (keys_iff Z.ltb Z.eqb zsto (m_tracks s) k I). exists q. exact T.
Qed.
Lemma slice_loop_none : forall l acc a b, (forall n, In n l -> (n_start n < a)%Q) -> slice_loop acc l a b = Ok acc.
Proof.
  induction l as [|n l IH]; intros acc a b H; auto. simpl. rewrite (proj2 (Qltb_lt _ _) (H n (or_introl eq_refl))). simpl.
  apply IH. intros; apply H; right; auto.
Qed.
Lemma trim_loop_none : forall l a b, (forall q n, In q l -> In n (q_notes q) -> (n_start n < a)%Q) -> trim_loop l a b = Ok tt.
Proof.
  induction l as [|q l IH]; intros a b H; auto. cbn [trim_loop]. unfold q_slice. cbn [andb].
  rewrite slice_loop_none; [|intros n Hn; apply (H q n); auto; left; auto]. cbn [bind]. apply IH. intros q' n Hq Hn. apply (H q' n); auto; right; auto.
Qed.
Lemma last_within_some : forall l b acc, last_within l b (Some acc) <> None.
Proof. induction l as [|n l IH]; intros b acc; simpl; [discriminate|]. destruct (Qle_bool _ _); auto; discriminate. Qed.
Lemma truncate_all_spec : forall res ops initial f,
  let s := ms_run (ms_empty res) ops in
  let all n := exists k q, trk s k = Some q /\ In n (q_notes q) in
  (forall n, all n -> (n_start n < n_end n)%Q) ->
  ((forall n, ~ all n) -> ms_truncate s initial None = (Err ValueError, s)) /\
  ((exists n, all n) -> exists t, ms_truncate s initial None = (Ok (Some t), s) /\
      (forall n, all n -> (n_end n <= t)%Q) /\ exists n, all n /\ n_end n = t) /\
  ((f < 0)%Q -> ms_truncate s initial (Some f) = (Err ValueError, s)) /\
  ((0 <= f)%Q -> (forall n, all n -> (f < n_end n)%Q) -> ms_truncate s initial (Some f) = (Ok None, s)) /\
  ((0 <= f)%Q -> (exists n, all n) -> (forall n, all n -> (n_end n <= f)%Q) -> ms_truncate s initial (Some f) = (Err AttributeError, s)) /\
  (forall r, ms_truncate s initial (Some f) = (Ok r, s) -> r = None).
Proof.
  intros res ops initial f s all V. assert (I : tinv s) by (apply tinv_run, tinv_empty).
  assert (EV : forall n, In n (ms_events s) <-> all n) by (intro n; apply values_notes; auto).
  assert (KEY : forall t, last_within (ms_events s) f None = Some t -> sd_keys (m_tracks s) <> []).
  { intros t H. destruct (ms_events s) as [|n l] eqn:E; [discriminate|].
    destruct (proj1 (EV n) (or_introl eq_refl)) as [k [q [T _]]].
    assert (In k (sd_keys (m_tracks s))) by (apply (keys_iff Z.ltb Z.eqb zsto (m_tracks s) k I); exists q; exact T).
    intro X. rewrite X in H0. destruct H0. }
  split; [|split; [|split; [|split; [|split]]]].
  - intro N. unfold ms_truncate. destruct (ms_events s) as [|n l] eqn:E; auto. exfalso. apply (N n). apply EV. left; auto.
  - intros [n0 Hn0]. unfold ms_truncate. apply EV in Hn0. destruct (ms_events s) as [|n l] eqn:E; [destruct Hn0|].
    destruct (max_end_spec (n :: l)) as [M1 [M2 _]]. destruct M2 as [m [Hm Em]]; [discriminate|].
    cbv zeta. unfold ms_trim. rewrite trim_loop_none.
    + exists (max_end (n :: l)). split; auto. split; [intros x Hx; apply M1; apply EV; auto|]. exists m. split; auto. apply EV; auto.
    + intros q x Hq Hx. unfold ms_values in Hq. apply in_flat_map in Hq as [k [Hk Hq]]. destruct (trk s k) as [q'|] eqn:T; [|destruct Hq].
      destruct Hq as [<-|[]]. assert (A : all x) by (exists k, q'; auto). apply EV in A as A'. specialize (M1 x A'). specialize (V x A). lra.
  - intro H. unfold ms_truncate. rewrite (proj2 (Qltb_lt f 0) H). auto.
  - intros H N. unfold ms_truncate. rewrite (proj2 (Qltb_ge f 0) H). destruct (ms_events s) as [|n l] eqn:E; auto.
    cbn [last_within]. assert (X : all n) by (apply EV; left; auto). rewrite (proj2 (Qle_bool_false _ _) (N n X)). auto.
  - intros H [n0 Hn0] N. unfold ms_truncate. rewrite (proj2 (Qltb_ge f 0) H). apply EV in Hn0.
    destruct (last_within (ms_events s) f None) as [t|] eqn:L.
    + specialize (KEY t eq_refl). destruct (sd_keys (m_tracks s)); [contradiction|auto].
    + exfalso. destruct (ms_events s) as [|n l] eqn:E; [destruct Hn0|]. cbn [last_within] in L.
      assert (X : all n) by (apply EV; left; auto). rewrite (proj2 (Qle_bool_iff _ _) (N n X)) in L. apply last_within_some in L. auto.
  - intros r. unfold ms_truncate. destruct (Qltb f 0); [discriminate|]. destruct (last_within (ms_events s) f None) as [t|] eqn:L; [|intros [= <-]; auto].
    specialize (KEY t eq_refl). destruct (sd_keys (m_tracks s)); [contradiction|discriminate].
Qed.
Lemma trim_unchanged : forall s e i, snd (ms_trim s e i) = s.
Proof. reflexivity. Qed.

(** ** histories *)
Lemma reg_do : forall s o i, ~ registers i o -> reg (ms_do s o) i = reg s i.
Proof.
  intros s o i N.
  assert (C : forall j p n d, j <> i -> reg (snd (ms_create s j p n d)) i = reg s i).
  { intros j p n d H. unfold ms_create. destruct (negb _); auto. destruct (reg s j); auto. destruct (i_new _ _ _ _); auto.
    cbn [snd]. rewrite reg_put_reg. rewrite (proj2 (Z.eqb_neq j i) H). auto. }
  destruct o; cbn [ms_do registers] in *; auto.
  - unfold ms_getitem. destruct ((i0 <? 0) || (128 <=? i0)); auto. destruct (reg s i0) as [j|]; [destruct (trk s j); auto|].
    cbn [snd]. rewrite reg_put_track, reg_put_reg. rewrite (proj2 (Z.eqb_neq i0 i) N). auto.
  - unfold ms_setitem. destruct ((i0 <? 0) || (128 <=? i0)); auto.
  - unfold ms_setitem_notes, ms_setitem. destruct ((i0 <? 0) || (128 <=? i0)); auto.
  - unfold ms_get_track. destruct ((i0 <? 0) || (128 <=? i0)); auto. destruct (trk s i0) eqn:T; [rewrite T; auto|].
    specialize (C i0 program name drum N). destruct (ms_create s i0 program name drum) as [[r|e] s1]; cbn [snd] in *; auto.
    destruct (trk s1 i0); auto.
  - unfold ms_mutate. destruct (trk s k); auto.
Qed.
Lemma untouched : forall ops s i, Forall (fun o => ~ registers i o) ops -> reg (ms_run s ops) i = reg s i.
Proof.
  induction ops as [|o ops IH]; intros s i F; auto. inversion F; subst. simpl. rewrite IH by auto. apply reg_do; auto.
Qed.
Lemma reg_keep : forall s o k j, reg s k = Some j -> reg (ms_do s o) k = Some j.
Proof.
  intros s o k j H.
  assert (C : forall i p n d, reg (snd (ms_create s i p n d)) k = Some j).
  { intros i p n d. unfold ms_create. destruct (negb _); auto. destruct (reg s i) eqn:E; auto. destruct (i_new _ _ _ _); auto.
    cbn [snd]. rewrite reg_put_reg, reg_put_track. destruct (Z.eqb_spec i k); auto. congruence. }
  destruct o; cbn [ms_do]; auto.
  - unfold ms_getitem. destruct ((i <? 0) || (128 <=? i)); auto. destruct (reg s i) as [j'|] eqn:E; [destruct (trk s j'); auto|].
    cbn [snd]. rewrite reg_put_track, reg_put_reg. destruct (Z.eqb_spec i k); auto. congruence.
  - unfold ms_setitem. destruct ((i <? 0) || (128 <=? i)); auto.
  - unfold ms_setitem_notes, ms_setitem. destruct ((i <? 0) || (128 <=? i)); auto.
  - unfold ms_get_track. destruct ((i <? 0) || (128 <=? i)); auto. destruct (trk s i) eqn:T; [rewrite T; auto|].
    specialize (C i program name drum). destruct (ms_create s i program name drum) as [[r|e] s1]; cbn [snd] in *; auto.
    destruct (trk s1 i); auto.
  - unfold ms_mutate. destruct (trk s k0); auto.
Qed.
Lemma reg_keep_run : forall ops s k j, reg s k = Some j -> reg (ms_run s ops) k = Some j.
Proof. induction ops as [|o ops IH]; intros s k j H; auto. simpl. apply IH. apply reg_keep; auto. Qed.
Lemma created_reg : forall ops s i, tinv s -> rinv s -> Forall no_subscript ops -> (exists o, In o ops /\ creates i o) ->
  reg (ms_run s ops) i = Some i.
Proof.
  induction ops as [|o ops IH]; intros s i I R F [x [Hx Cx]]; [destruct Hx|]. inversion F; subst. simpl. destruct Hx as [->|Hx].
  - apply reg_keep_run. destruct x; cbn [creates] in Cx; try contradiction. destruct Cx as [-> Hp]. cbn [ms_do]. unfold ms_create.
    rewrite range_ok by auto. cbn [negb]. destruct (reg s i) as [j|] eqn:E.
    + cbn [snd]. destruct (R i j E) as [-> _]. auto.
    + destruct (i_new_ok program name drum Hp) as [ins [-> _]]. cbn [snd]. rewrite reg_put_reg, Z.eqb_refl. auto.
  - apply IH; eauto. + apply tinv_do; auto. + apply rinv_do; auto.
Qed.
Lemma create_api : forall res ops i program name drum,
  let s := ms_run (ms_empty res) ops in
  (~ 0 <= program < 128 -> ms_create s i program name drum = (Err ValueError, s)) /\
  (0 <= program < 128 -> Forall (fun o => ~ registers i o) ops ->
     exists q s', ms_create s i program name drum = (Ok i, s') /\ fresh_seq program (m_res s) q /\ i_drum (q_instr q) = drum /\
       trk s' i = Some q /\ (forall k, k <> i -> trk s' k = trk s k) /\
       (forall p n d, 0 <= p < 128 -> ms_create s' i p n d = (Ok i, s')) /\
       (0 <= i < 128 -> forall n p d, ms_get_track s' i n p d = (Ok q, s'))).
Proof.
  intros res ops i program name drum s. destruct (create_spec res ops i program name drum) as [C1 [_ C3]]. fold s in C1, C3.
  split; auto. intros Hp U. assert (R : reg s i = None) by (unfold s; rewrite untouched by auto; auto).
  destruct (C3 Hp R) as [q [s' [E [H1 [H2 [H3 [H4 H5]]]]]]]. exists q, s'.
  split; auto. split; auto. split; auto. split; auto. split; auto. split; auto.
  intros p n d Hp'. assert (R' : reg s' i = Some i).
  { unfold ms_create in E. rewrite range_ok in E by auto. cbn [negb] in E. rewrite R in E.
    destruct (i_new instrument_families program name drum); [|discriminate]. injection E as <-. rewrite reg_put_reg, Z.eqb_refl. auto. }
  unfold ms_create. rewrite range_ok by auto. cbn [negb]. rewrite R'. auto.
Qed.
Lemma subscript_api : forall res ops i,
  let s := ms_run (ms_empty res) ops in
  (~ 0 <= i < 128 -> ms_getitem s i = (Err ValueError, s)) /\
  (0 <= i < 128 -> Forall (fun o => ~ registers i o) ops ->
    let n := Z.of_nat (List.length (sd_keys_of (m_tracks s))) in
    exists q s', ms_getitem s i = (Ok q, s') /\ fresh_seq i (m_res s) q /\
      trk s' n = Some q /\ (forall k, k <> n -> trk s' k = trk s k) /\
      (n <> i -> trk s i = None -> forall nm p d, 0 <= p < 128 -> ms_get_track s' i nm p d = (Err KeyError, s'))).
Proof.
  intros res ops i s. destruct (subscript_spec res ops i) as [C1 [_ C3]]. fold s in C1, C3. split; auto.
  intros Hi U. apply C3; auto. unfold s; rewrite untouched by auto; auto.
Qed.
Lemma setitem_api : forall res ops i q,
  let s := ms_run (ms_empty res) ops in
  (~ 0 <= i < 128 -> ms_setitem s i q = (Err ValueError, s)) /\
  (0 <= i < 128 -> exists s', ms_setitem s i q = (Ok tt, s') /\ (forall k, k <> i -> trk s' k = trk s k) /\
     (forall nm p d, ms_get_track s' i nm p d = (Ok q, s')) /\
     (Forall no_subscript ops -> (exists o, In o ops /\ creates i o) -> ms_getitem s' i = (Ok q, s')) /\
     (Forall (fun o => ~ registers i o) ops -> exists q' s'', ms_getitem s' i = (Ok q', s'') /\ fresh_seq i (m_res s) q')).
Proof.
  intros res ops i q s. destruct (setitem_spec res ops i q) as [C1 C2]. fold s in C1, C2. split; auto.
  intro Hi. destruct (C2 Hi) as [s' [E [_ [H1 [H2 [H3 H4]]]]]]. exists s'. split; auto. split; auto. split; auto. split.
  - intros NS EX. apply H3. apply created_reg; auto. apply tinv_empty. intros k j X; discriminate.
  - intro U. apply H4. unfold s; rewrite untouched by auto; auto.
Qed.
