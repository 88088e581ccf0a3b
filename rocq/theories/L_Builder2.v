(** More lemmas for building graphs from multi-track objects. *)
From Coq Require Import Lia Sorted Permutation Ascii.
From Verif Require Import PyBase L_Base M_SortedDict L_SortedDict M_Note M_Events M_Seq M_Seqs S_Seqs L_Seqs L_SeqMore M_Chord M_Graph S_Graph L_Graph4 L_Reader3 M_Builder S_Builder L_Builder.
Open Scope Z_scope.

Lemma keys_consecutive : forall m n, tinv m -> 0 <= n -> consecutive m n -> sd_keys (m_tracks m) = map Z.of_nat (List.seq 0 (Z.to_nat n)).
Proof.
  intros m n I N C. apply sorted_unique; [apply I|apply seq_sorted|]. intros x. rewrite (key_trk m x I), (C x), in_map_iff. split.
  - intros H. exists (Z.to_nat x). split; [lia|apply in_seq; lia].
  - intros (y & <- & Y). apply in_seq in Y. lia.
Qed.
Lemma walk_consecutive : forall e conv c per n, 1 <= n -> valid_config c -> forall fuel i m b r b' m', tinv m -> (i <= 128)%nat ->
  consecutive m (n + Z.of_nat i) -> (forall k, reg m k <> None <-> 0 <= k < Z.of_nat i) -> hollow m ->
  walk fuel e conv c per b None m i = Some (r, b', m') -> r = Err ValueError.
Proof.
  intros e conv c per n N V. induction fuel as [|f IH]; intros i m b r b' m' I LI C R H W; cbn [walk] in W.
  all: pose proof (keys_consecutive m (n + Z.of_nat i) I ltac:(lia) C) as KS.
  all: assert (K : nth_error (sd_keys (m_tracks m)) i = Some (Z.of_nat i)) by
    (rewrite KS; apply map_nth_error; rewrite (nth_error_nth' _ 0%nat) by (rewrite seq_length; lia); rewrite seq_nth by lia; reflexivity).
  all: rewrite K in W.
  - discriminate.
  - destruct (getitem_hollow m (Z.of_nat i) I H) as (r0 & m1 & E & I1 & H1 & P). rewrite E in W. destruct r0 as [q|x]; [|destruct P as [-> _]; injection W as <- <- <-; reflexivity].
    destruct P as [P1 P2]. destruct (tracks_hollow e conv c per b q P1 P2) as [[T _]|[_ T]]; [|contradiction]. rewrite T in W.
    assert (L : (i < 128)%nat).
    { destruct (Nat.eq_dec i 128) as [->|]; [|lia]. exfalso. unfold ms_getitem in E. rewrite range_bad in E by lia. discriminate. }
    assert (RN : reg m (Z.of_nat i) = None).
    { destruct (reg m (Z.of_nat i)) eqn:X; [|reflexivity]. exfalso. assert (0 <= Z.of_nat i < Z.of_nat i) by (apply R; congruence). lia. }
    unfold ms_getitem in E. rewrite range_idx, RN in E by lia.
    assert (LEN : Z.of_nat (sd_len (m_tracks m)) = n + Z.of_nat i).
    { destruct (values_length m I) as [_ <-]. rewrite KS, map_length, seq_length. lia. }
    rewrite LEN in E. injection E as _ E. subst m1.
    destruct (trk_put (put_reg m (Z.of_nat i) (n + Z.of_nat i)) (n + Z.of_nat i) (q_new [] (mkI (Z.of_nat i) "Instrument 0" false) (m_res m)) (tinv_put_reg m _ _ I)) as [_ G].
    refine (IH (Datatypes.S i) _ _ _ _ _ I1 L _ _ H1 W).
    + intros k. rewrite G, trk_put_reg. specialize (C k). destruct (Z.eqb_spec (n + Z.of_nat i) k) as [<-|NE].
      * split; [intros _; lia|discriminate].
      * rewrite C. lia.
    + intros k. rewrite reg_put_track, reg_put_reg. specialize (R k). destruct (Z.eqb_spec (Z.of_nat i) k) as [<-|NE].
      * split; [intros _; lia|discriminate].
      * rewrite R. lia.
Qed.

(** Histories. *)
Lemma assigns_reg : forall ops s, Forall assigns ops -> forall k, reg (ms_run s ops) k = reg s k.
Proof.
  intros ops s F k. apply untouched. apply Forall_forall. intros o O. rewrite Forall_forall in F. specialize (F o O). destruct o; cbn in *; auto.
Qed.
Lemma orderly_do : forall s o, orderly o -> tinv s -> all_registered s -> all_registered (ms_do s o).
Proof.
  intros s o O I A.
  assert (CR : forall i p n d, tinv (snd (ms_create s i p n d)) /\ all_registered (snd (ms_create s i p n d))).
  { intros i p n d. unfold ms_create. destruct (negb _); [split; auto|]. destruct (reg s i) eqn:R; [split; auto|]. destruct (i_new _ _ _ _); [|split; auto].
    cbn [snd]. destruct (trk_put s i (q_new [] a (m_res s)) I) as [I' G]. split; [apply tinv_put_reg; exact I'|]. intros k K.
    rewrite trk_put_reg, G in K. rewrite reg_put_reg, reg_put_track. destruct (Z.eqb_spec i k) as [->|NE]; [reflexivity|apply A; exact K]. }
  destruct o; cbn in O; try contradiction; cbn [ms_do].
  - apply CR.
  - unfold ms_get_track. destruct ((i <? 0) || (128 <=? i)); [exact A|]. destruct (trk s i) eqn:T.
    + rewrite T. exact A.
    + destruct (CR i program name drum) as [_ C]. destruct (ms_create s i program name drum) as [[x|x] s1]; cbn [snd] in *; [|exact C]. destruct (trk s1 i); exact C.
  - destruct (trk_mutate s k o I) as (_ & R & G). intros x X. rewrite R. apply A. rewrite G in X. destruct (trk s k) as [q|] eqn:T; [|exact X].
    destruct (Z.eqb_spec k x) as [->|NE]; [congruence|exact X].
Qed.
Lemma orderly_run : forall ops s, Forall orderly ops -> tinv s -> all_registered s -> all_registered (ms_run s ops).
Proof.
  unfold ms_run. induction ops as [|o ops IH]; intros s F I A; [exact A|]. inversion F; subst. cbn [fold_left]. apply IH; auto; [apply tinv_do; exact I|apply orderly_do; auto].
Qed.
Lemma of_list_registered : forall r l m, ms_of_list r l = Ok m -> tinv m /\ all_registered m /\ forall k, trk m k <> None -> exists q, In q l /\ i_num (q_instr q) = k.
Proof.
  intros r l. unfold ms_of_list.
  assert (G : forall l s m, tinv s -> all_registered s -> (forall k j, reg s k = Some j -> j = k) -> ms_add_all s l = Ok m ->
    tinv m /\ all_registered m /\ forall k, trk m k <> None -> trk s k <> None \/ exists q, In q l /\ i_num (q_instr q) = k).
  { clear l. induction l as [|q l IH]; intros s m I A RI E; cbn [ms_add_all] in E; [injection E as <-; split; [exact I|split; [exact A|auto]]|].
    destruct (ms_add_seq s q) as [s1|x] eqn:E1; [|discriminate]. cbn [bind] in E. unfold ms_add_seq in E1.
    destruct (reg s (i_num (q_instr q))) as [j|] eqn:R.
    - rewrite (RI _ _ R) in *. destruct (trk s (i_num (q_instr q))) as [q0|] eqn:T; [|discriminate]. destruct (q_merge q0 q) as [[u|x] q1]; [|discriminate]. injection E1 as <-.
      destruct (trk_put s (i_num (q_instr q)) q1 I) as [I' G]. destruct (IH _ m I') as (M1 & M2 & M3); auto.
      { intros k K. rewrite G in K. rewrite reg_put_track. destruct (Z.eqb_spec (i_num (q_instr q)) k) as [e|NE]; [rewrite <- e, R, (RI _ _ R); reflexivity|apply A; exact K]. }
      split; [exact M1|]. split; [exact M2|]. intros k K. destruct (M3 k K) as [H|(q' & H1 & H2)]; [|right; exists q'; split; [right; exact H1|exact H2]].
      rewrite G in H. destruct (Z.eqb_spec (i_num (q_instr q)) k); [right; exists q; split; [left; reflexivity|assumption]|left; exact H].
    - injection E1 as <-. destruct (trk_put s (i_num (q_instr q)) q I) as [I' G]. destruct (IH _ m (tinv_put_reg _ (i_num (q_instr q)) (i_num (q_instr q)) I')) as (M1 & M2 & M3); auto.
      { intros k K. rewrite trk_put_reg, G in K. rewrite reg_put_reg, reg_put_track. destruct (Z.eqb_spec (i_num (q_instr q)) k) as [e|NE]; [rewrite e; reflexivity|apply A; exact K]. }
      { intros k j. rewrite reg_put_reg, reg_put_track. destruct (Z.eqb_spec (i_num (q_instr q)) k); [congruence|apply RI]. }
      split; [exact M1|]. split; [exact M2|]. intros k K. destruct (M3 k K) as [H|(q' & H1 & H2)]; [|right; exists q'; split; [right; exact H1|exact H2]].
      rewrite trk_put_reg, G in H. destruct (Z.eqb_spec (i_num (q_instr q)) k); [right; exists q; split; [left; reflexivity|assumption]|left; exact H]. }
  intros m E. destruct (G l (ms_empty r) m) as (M1 & M2 & M3); auto; [apply tinv_empty|intros k K; exfalso; apply K; reflexivity|discriminate|].
  split; [exact M1|]. split; [exact M2|]. intros k K. destruct (M3 k K) as [H|H]; [exfalso; apply H; reflexivity|exact H].
Qed.

(** The suffix of a file name. *)
Fixpoint dotless (s : string) : Prop := match s with EmptyString => True | String c r => c <> "."%char /\ dotless r end.
Lemma suffix_from_dotless : forall s acc, dotless s -> suffix_from acc s = acc.
Proof.
  induction s as [|c r IH]; intros acc D; [reflexivity|]. destruct D as [D1 D2]. cbn [suffix_from]. destruct (Ascii.eqb_spec c "."%char); [contradiction|]. apply IH, D2.
Qed.
Lemma suffix_from_app : forall p acc t, dotless t -> suffix_from acc (p ++ String "."%char t)%string = String "."%char t.
Proof.
  induction p as [|c r IH]; intros acc t D.
  - cbn [append suffix_from]. rewrite Ascii.eqb_refl. apply suffix_from_dotless, D.
  - cbn [append suffix_from]. apply IH, D.
Qed.
Lemma suffix_from_inv : forall s acc t, suffix_from acc s = String "."%char t -> acc = String "."%char t \/ exists p, s = (p ++ String "."%char t)%string.
Proof.
  induction s as [|c r IH]; intros acc t H; cbn [suffix_from] in H; [left; exact H|].
  destruct (IH _ _ H) as [E|[p ->]].
  - destruct (Ascii.eqb_spec c "."%char) as [->|N]; [right; exists ""%string; exact E|left; exact E].
  - right. exists (String c p). reflexivity.
Qed.
Lemma suffix_iff : forall name t, dotless t -> t <> ""%string -> (suffix_of name = String "."%char t <-> exists stem, stem <> ""%string /\ name = (stem ++ String "."%char t)%string).
Proof.
  intros name t D NT. unfold suffix_of. destruct name as [|c r].
  - split; [discriminate|]. intros ([|c s] & N & E); [congruence|discriminate].
  - split.
    + intros H. assert (S0 : suffix_from "" r = String "."%char t) by (destruct (String.eqb _ "."); [discriminate|exact H]).
      destruct (suffix_from_inv _ _ _ S0) as [E|[p ->]]; [discriminate|]. exists (String c p). split; [discriminate|reflexivity].
    + intros ([|c' s] & N & E); [congruence|]. cbn [append] in E. injection E as -> ->. rewrite suffix_from_app by exact D.
      destruct (String.eqb_spec (String "."%char t) ".") as [X|X]; [congruence|reflexivity].
Qed.
