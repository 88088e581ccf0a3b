(** Lemmas for building graphs from multi-track objects. *)
From Coq Require Import Lia Sorted Permutation.
From Verif Require Import PyBase L_Base M_SortedDict L_SortedDict M_Note M_Events M_Seq M_Seqs S_Seqs L_Seqs L_SeqMore M_Chord M_Graph S_Graph L_Graph4 L_Reader3 M_Builder S_Builder.
Open Scope Z_scope.

Lemma tracks_cons : forall e conv c per q r b large, build_tracks e conv c per b large (q :: r) =
  match build_tracks e conv c per b large [q] with (Err x, b1) => (Err x, b1) | (Ok l1, b1) => build_tracks e conv c per b1 l1 r end.
Proof.
  intros. cbn [build_tracks]. destruct (i_drum (q_instr q)); [reflexivity|]. destruct (Nat.eqb _ 1); [reflexivity|].
  destruct (build_sequence e b q c (if per then None else large)) as [[g|x] b1]; [|reflexivity].
  destruct (g_nodes g); [reflexivity|]. destruct per; [|reflexivity]. destruct (conv g); reflexivity.
Qed.
Lemma key_trk : forall m k, tinv m -> (In k (sd_keys (m_tracks m)) <-> trk m k <> None).
Proof.
  intros m k I. unfold trk. rewrite (keys_iff Z.ltb Z.eqb zsto _ k I). destruct (od_get Z seq Z.eqb (od (m_tracks m)) k) as [q|]; split; intro H; try congruence; eauto.
  destruct H; congruence.
Qed.
Lemma getitem_reg : forall m k q, 0 <= k < 128 -> reg m k = Some k -> trk m k = Some q -> ms_getitem m k = (Ok q, m).
Proof. intros m k q R E T. unfold ms_getitem. rewrite range_idx by exact R. rewrite E, T. reflexivity. Qed.

Definition vals (m : mseqs) (ks : list Z) : list seq := flat_map (fun k => match trk m k with Some q => [q] | None => [] end) ks.
Lemma walk_registered : forall e conv c per m, tinv m -> all_registered m -> in_range m ->
  forall suf pre fuel b large, sd_keys (m_tracks m) = pre ++ suf -> (List.length suf <= fuel)%nat ->
  walk fuel e conv c per b large m (List.length pre) = Some (build_tracks e conv c per b large (vals m suf), m).
Proof.
  intros e conv c per m I A R. induction suf as [|k suf IH]; intros pre fuel b large E F.
  - rewrite app_nil_r in E. unfold walk; fold walk. destruct fuel; cbn [walk].
    all: rewrite (proj2 (nth_error_None _ _)) by (rewrite E; lia); reflexivity.
  - assert (N : nth_error (sd_keys (m_tracks m)) (List.length pre) = Some k) by (rewrite E, nth_error_app2, Nat.sub_diag by lia; reflexivity).
    assert (K : trk m k <> None) by (apply key_trk; [exact I|]; rewrite E; apply in_app_iff; right; left; reflexivity).
    destruct (trk m k) as [q|] eqn:T; [|congruence]. destruct fuel as [|f]; [cbn in F; lia|]. cbn [walk]. rewrite N.
    rewrite (getitem_reg m k q); [|apply R; congruence|apply A; congruence|exact T].
    unfold vals. cbn [flat_map]. rewrite T. cbn [app]. fold (vals m suf). rewrite (tracks_cons e conv c per q (vals m suf)).
    destruct (build_tracks e conv c per b large [q]) as [[l1|x] b1]; [|reflexivity].
    specialize (IH (pre ++ [k]) f b1 l1). rewrite app_length in IH. cbn [List.length] in IH. rewrite Nat.add_1_r in IH. apply IH; [rewrite <- app_assoc; exact E|cbn in F; lia].
Qed.
Lemma build_registered : forall e conv c per m b fuel, tinv m -> all_registered m -> in_range m -> (List.length (sd_keys (m_tracks m)) <= fuel)%nat ->
  build_object fuel e conv b m c per = Some (build e conv b (ms_values m) c per, m).
Proof.
  intros e conv c per m b fuel I A R F. unfold build_object. change 0%nat with (List.length (@nil Z)).
  rewrite (walk_registered e conv c per m I A R (sd_keys (m_tracks m)) [] fuel b None eq_refl F).
  unfold build. change (vals m (sd_keys (m_tracks m))) with (ms_values m). destruct (build_tracks e conv c per b None (ms_values m)) as [[[g|]|x] b1]; try reflexivity.
Qed.
(** Registered, but a number cannot be read. *)
Lemma walk_range : forall e conv c per m, tinv m -> all_registered m -> forall fuel i b large l b' m',
  walk fuel e conv c per b large m i = Some (Ok l, b', m') -> forall k, In k (skipn i (sd_keys (m_tracks m))) -> 0 <= k < 128.
Proof.
  intros e conv c per m I A. induction fuel as [|f IH]; intros i b large l b' m' W k K; cbn [walk] in W.
  - destruct (nth_error (sd_keys (m_tracks m)) i) eqn:N; [discriminate|]. apply nth_error_None in N. rewrite skipn_all2 in K by exact N. destruct K.
  - destruct (nth_error (sd_keys (m_tracks m)) i) as [k0|] eqn:N; [|apply nth_error_None in N; rewrite skipn_all2 in K by exact N; destruct K].
    destruct (nth_error_split _ _ N) as (a & z & E & L). rewrite E, <- L in K. rewrite skipn_app, skipn_all, Nat.sub_diag in K. cbn [app skipn] in K.
    assert (R0 : 0 <= k0 < 128).
    { destruct (Z_lt_le_dec k0 0) as [H|H]; [|destruct (Z_lt_le_dec k0 128) as [H'|H']; [lia|]].
      all: exfalso; unfold ms_getitem in W; rewrite range_bad in W by lia; discriminate. }
    destruct K as [<-|K]; [exact R0|].
    assert (T : trk m k0 <> None) by (apply key_trk; [exact I|]; apply (nth_error_In _ _ N)). destruct (trk m k0) as [q|] eqn:TQ; [|congruence].
    rewrite (getitem_reg m k0 q) in W; [|exact R0|apply A; congruence|exact TQ].
    destruct (build_tracks e conv c per b large [q]) as [[l1|x] b1]; [|discriminate].
    apply (IH _ _ _ _ _ _ W k). rewrite E. replace (Datatypes.S i) with (List.length (a ++ [k0])) by (rewrite app_length; cbn; lia).
    replace (a ++ k0 :: z) with ((a ++ [k0]) ++ z) by (rewrite <- app_assoc; reflexivity). rewrite skipn_app, skipn_all, Nat.sub_diag. exact K.
Qed.

(** What every registered number leads to has no notes. *)
Definition hollow (m : mseqs) : Prop := forall k j, reg m k = Some j -> exists q, trk m j = Some q /\ q_notes q = [] /\ i_drum (q_instr q) = false.
Lemma getitem_hollow : forall m k, tinv m -> hollow m -> exists r m', ms_getitem m k = (r, m') /\ tinv m' /\ hollow m' /\
  match r with Ok q => q_notes q = [] /\ i_drum (q_instr q) = false | Err x => x = ValueError /\ ~ 0 <= k < 128 end.
Proof.
  intros m k I H. unfold ms_getitem. destruct ((k <? 0) || (128 <=? k)) eqn:B.
  - exists (Err ValueError), m. split; [reflexivity|]. split; [exact I|]. split; [exact H|]. split; [reflexivity|]. intros R. rewrite range_idx in B by exact R. discriminate.
  - destruct (reg m k) as [j|] eqn:E.
    + destruct (H k j E) as (q & T & N & D). rewrite T. exists (Ok q), m. split; [reflexivity|]. split; [exact I|]. split; [exact H|]. split; [exact N|exact D].
    + set (j := Z.of_nat (sd_len (m_tracks m))). set (q := q_new [] (mkI k "Instrument 0" false) (m_res m)).
      exists (Ok q), (put_track (put_reg m k j) j q). split; [reflexivity|].
      destruct (trk_put (put_reg m k j) j q (tinv_put_reg m k j I)) as [I' G]. split; [exact I'|]. split; [|split; reflexivity].
      intros k' j' R'. rewrite reg_put_track, reg_put_reg in R'. rewrite G, trk_put_reg. destruct (Z.eqb_spec j j') as [->|NJ]; [exists q; split; [reflexivity|split; reflexivity]|].
      destruct (Z.eqb_spec k k') as [->|NK]; [congruence|]. apply (H k' j' R').
Qed.
Lemma compute_empty : forall e q t f a p, q_notes q = [] -> compute_data e q t f a p = Ok ([], 0).
Proof. intros e q t f a p H. unfold compute_data. rewrite H. cbn [group_notes bind fst snd]. destruct f; reflexivity. Qed.
Lemma tracks_hollow : forall e conv c per b q, q_notes q = [] -> i_drum (q_instr q) = false ->
  build_tracks e conv c per b None [q] = (Ok None, b) /\ valid_config c \/ build_tracks e conv c per b None [q] = (Err ValueError, b) /\ ~ valid_config c.
Proof.
  intros e conv c per b q N D. assert (DEC : valid_config c \/ ~ valid_config c).
  { unfold valid_config. destruct (Z_le_dec 1 (c_size c)), (Z_le_dec (c_size c) 128), (Z_le_dec 1 (c_buckets c)); try (right; lia).
    destruct (Qlt_le_dec (c_tolerance c) 0) as [H|H]; [right; intros (_ & _ & H' & _); exact (Qlt_not_le _ _ H H')|].
    destruct (Qlt_le_dec 1 (c_tolerance c)) as [H1|H1]; [right; intros (_ & _ & _ & H'); exact (Qlt_not_le _ _ H1 H')|]. left. repeat split; auto; lia. }
  cbn [build_tracks]. rewrite D, N. cbn [List.length Nat.eqb].
  replace (if per then None else None) with (@None digraph) by (destruct per; reflexivity).
  destruct DEC as [V|V].
  - left. split; [|exact V]. unfold build_sequence. destruct (valid_checks c V) as (-> & -> & ->). rewrite compute_empty by exact N. reflexivity.
  - right. split; [|exact V]. rewrite build_invalid by exact V. reflexivity.
Qed.
Lemma walk_hollow : forall e conv c per fuel m b i r b' m', tinv m -> hollow m -> walk fuel e conv c per b None m i = Some (r, b', m') ->
  b' = b /\ (r = Ok None \/ r = Err ValueError).
Proof.
  intros e conv c per. induction fuel as [|f IH]; intros m b i r b' m' I H W; cbn [walk] in W.
  - destruct (nth_error _ i); [discriminate|]. injection W as <- <- <-. auto.
  - destruct (nth_error (sd_keys (m_tracks m)) i) as [k|]; [|injection W as <- <- <-; auto].
    destruct (getitem_hollow m k I H) as (r0 & m1 & E & I1 & H1 & P). rewrite E in W. destruct r0 as [q|x].
    + destruct P as [P1 P2]. destruct (tracks_hollow e conv c per b q P1 P2) as [[T _]|[T _]]; rewrite T in W; [exact (IH _ _ _ _ _ _ I1 H1 W)|injection W as <- <- <-; auto].
    + destruct P as [-> _]. injection W as <- <- <-. auto.
Qed.

(** The loop ends. *)
Definition regs (m : mseqs) : nat := List.length (filter (fun k => match reg m k with Some _ => true | None => false end) (map Z.of_nat (List.seq 0 128))).
Lemma filter_le : forall A (p : A -> bool) l, (List.length (filter p l) <= List.length l)%nat.
Proof. intros A p. induction l as [|a l IH]; cbn; [lia|]. destruct (p a); cbn; lia. Qed.
Lemma regs_le : forall m, (regs m <= 128)%nat.
Proof. intros m. unfold regs. rewrite (filter_le _ _ _). rewrite map_length, seq_length. lia. Qed.
Lemma filter_more : forall (p p' : Z -> bool) l k, NoDup l -> In k l -> p k = false -> p' k = true -> (forall x, x <> k -> p' x = p x) ->
  List.length (filter p' l) = Datatypes.S (List.length (filter p l)).
Proof.
  intros p p' l k. induction l as [|a l IH]; intros ND K P P' O; [destruct K|]. apply NoDup_cons_iff in ND. destruct ND as [NI ND].
  cbn [filter]. destruct (Z.eq_dec a k) as [->|NE].
  - rewrite P, P'. cbn [List.length]. f_equal. f_equal. apply filter_ext_in. intros x X. apply O. intros ->. contradiction.
  - destruct K as [->|K]; [congruence|]. rewrite (O a NE). destruct (p a); cbn [List.length]; rewrite IH by auto; reflexivity.
Qed.
Lemma getitem_measure : forall m k q m', tinv m -> ms_getitem m k = (Ok q, m') -> m' = m \/
  (tinv m' /\ (List.length (sd_keys (m_tracks m')) <= Datatypes.S (List.length (sd_keys (m_tracks m))))%nat /\ regs m' = Datatypes.S (regs m)).
Proof.
  intros m k q m' I E. unfold ms_getitem in E. destruct ((k <? 0) || (128 <=? k)) eqn:B; [discriminate|].
  destruct (reg m k) as [j|] eqn:R.
  - destruct (trk m j); [|discriminate]. injection E as _ <-. left. reflexivity.
  - right. injection E as _ <-. set (j := Z.of_nat (sd_len (m_tracks m))). set (q0 := q_new [] (mkI k "Instrument 0" false) (m_res m)).
    destruct (trk_put (put_reg m k j) j q0 (tinv_put_reg m k j I)) as [I' G]. split; [exact I'|]. split.
    + assert (ND : NoDup (sd_keys (m_tracks (put_track (put_reg m k j) j q0)))).
      { destruct I' as [N P _]. apply (Permutation_NoDup P N). }
      change (Datatypes.S (List.length (sd_keys (m_tracks m)))) with (List.length (j :: sd_keys (m_tracks m))).
      apply (NoDup_incl_length ND). intros x X. apply (key_trk _ x I') in X. rewrite G, trk_put_reg in X. destruct (Z.eqb_spec j x); [left; exact e|right; apply key_trk; auto].
    + unfold regs. apply (filter_more _ _ _ k).
      * apply (FinFun.Injective_map_NoDup); [intros x y H; lia|apply seq_NoDup].
      * apply in_map_iff. exists (Z.to_nat k). apply orb_false_iff in B. destruct B as [B1 B2]. apply Z.ltb_ge in B1. apply Z.leb_gt in B2. split; [lia|apply in_seq; lia].
      * rewrite R. reflexivity.
      * rewrite reg_put_track, reg_put_reg, Z.eqb_refl. reflexivity.
      * intros x NX. rewrite reg_put_track, reg_put_reg. replace (k =? x) with false by (symmetry; apply Z.eqb_neq; congruence). reflexivity.
Qed.
Lemma walk_total : forall e conv c per fuel m b large i, tinv m ->
  (List.length (sd_keys (m_tracks m)) - i + (128 - regs m) <= fuel)%nat -> walk fuel e conv c per b large m i <> None.
Proof.
  intros e conv c per. induction fuel as [|f IH]; intros m b large i I F; cbn [walk].
  - destruct (nth_error (sd_keys (m_tracks m)) i) eqn:N; [|discriminate]. assert (i < List.length (sd_keys (m_tracks m)))%nat by (apply nth_error_Some; congruence). lia.
  - destruct (nth_error (sd_keys (m_tracks m)) i) as [k|] eqn:N; [|discriminate]. assert (L : (i < List.length (sd_keys (m_tracks m)))%nat) by (apply nth_error_Some; congruence).
    destruct (ms_getitem m k) as [[q|x] m1] eqn:E; [|discriminate]. destruct (build_tracks e conv c per b large [q]) as [[l1|x] b1]; [|discriminate].
    destruct (getitem_measure m k q m1 I E) as [->|(I1 & L1 & R1)].
    + apply IH; [exact I|lia].
    + apply IH; [exact I1|]. pose proof (regs_le m1). lia.
Qed.
