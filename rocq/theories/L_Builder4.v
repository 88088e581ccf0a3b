(** What building leaves of assigned tracks; histories of numbered tracks. *)
From Coq Require Import Lia Lqa.
From Verif Require Import PyBase L_Base M_SortedDict L_SortedDict M_Note M_Events M_Seq M_Seqs S_Seqs L_Seqs L_SeqMore M_Chord M_Graph S_Graph L_Graph4 M_Load M_Song M_Reader M_Pipe M_Builder S_Builder L_Builder L_Builder2.
Open Scope Z_scope.

Lemma getitem_keeps : forall m k r m' x j, ms_getitem m k = (r, m') -> reg m x = Some j -> reg m' x = Some j.
Proof.
  intros m k r m' x j E R. unfold ms_getitem in E. destruct ((k <? 0) || (128 <=? k)); [injection E as _ <-; exact R|].
  destruct (reg m k) as [i|] eqn:K; [destruct (trk m i); injection E as _ <-; exact R|].
  injection E as _ <-. rewrite reg_put_track, reg_put_reg. destruct (Z.eqb_spec k x) as [->|N]; [congruence|exact R].
Qed.
Lemma walk_leaves : forall e conv c per fuel m b i r b' m', tinv m -> hollow m -> walk fuel e conv c per b None m i = Some (r, b', m') ->
  hollow m' /\ forall x j, reg m x = Some j -> reg m' x = Some j.
Proof.
  intros e conv c per. induction fuel as [|f IH]; intros m b i r b' m' I H W; cbn [walk] in W.
  - destruct (nth_error _ i); [discriminate|]. injection W as _ _ <-. split; auto.
  - destruct (nth_error (sd_keys (m_tracks m)) i) as [k|]; [|injection W as _ _ <-; split; auto].
    destruct (getitem_hollow m k I H) as (r0 & m1 & E & I1 & H1 & P). rewrite E in W. pose proof (fun x j => getitem_keeps m k r0 m1 x j E) as KP. destruct r0 as [q|x].
    + destruct P as [P1 P2]. destruct (tracks_hollow e conv c per b q P1 P2) as [[T _]|[T _]]; rewrite T in W; [|injection W as _ _ <-; split; auto].
      destruct (IH _ _ _ _ _ _ I1 H1 W) as [A1 A2]. split; [exact A1|]. intros x j R. apply A2, KP, R.
    + injection W as _ _ <-. split; auto.
Qed.
Lemma hollow_none : forall m, none_registered m -> hollow m.
Proof. intros m N k j R. rewrite N in R. discriminate. Qed.
Lemma object_hollow : forall e conv c per fuel b m r b' m', tinv m -> none_registered m -> build_object fuel e conv b m c per = Some (r, b', m') ->
  b' = b /\ (r = Ok tt \/ r = Err ValueError).
Proof.
  intros e conv c per fuel b m r b' m' I N. unfold build_object. destruct (walk fuel e conv c per b None m 0) as [[[r0 b0] m0]|] eqn:W; [|discriminate].
  destruct (walk_hollow _ _ _ _ _ _ _ _ _ _ _ I (hollow_none m N) W) as [-> [-> | ->]]; intros E; injection E as <- <- <-; auto.
Qed.
Lemma object_overwrites : forall e conv c per fuel b m r b' m' k q, tinv m -> none_registered m -> in_range m -> valid_config c ->
  k = Z.of_nat (List.length (ms_values m)) -> trk m k = Some q ->
  build_object fuel e conv b m c per = Some (r, b', m') -> exists q', trk m' k = Some q' /\ q_notes q' = [].
Proof.
  intros e conv c per fuel b m r b' m' k q I N RG V -> T. destruct (values_length m I) as [VL VK]. unfold build_object. destruct (walk fuel e conv c per b None m 0) as [[[r0 b0] m0]|] eqn:W; [|discriminate].
  assert (m' = m0 -> exists q', trk m' (Z.of_nat (List.length (ms_values m))) = Some q' /\ q_notes q' = []) as G.
  2:{ intros E. apply G. destruct r0 as [[g|]|x]; [destruct (conv g)| |]; injection E as _ _ E; congruence. }
  intros ->. destruct fuel as [|f]; cbn [walk] in W.
  - assert (IK : In (Z.of_nat (List.length (ms_values m))) (sd_keys (m_tracks m))) by (apply key_trk; congruence).
    destruct (sd_keys (m_tracks m)); [destruct IK|discriminate].
  - destruct (sd_keys (m_tracks m)) as [|k0 ks] eqn:KS.
    { assert (IK : In (Z.of_nat (List.length (ms_values m))) (sd_keys (m_tracks m))) by (apply key_trk; congruence). rewrite KS in IK. destruct IK. }
    cbn [nth_error] in W. assert (K0 : 0 <= k0 < 128). { apply RG. apply key_trk; auto. rewrite KS. left; reflexivity. }
    destruct (ms_getitem m k0) as [r1 m1] eqn:E.
    assert (R1 : reg m1 k0 = Some (Z.of_nat (List.length (ms_values m)))).
    { unfold ms_getitem in E. rewrite range_idx in E by exact K0. rewrite N in E. injection E as _ <-. rewrite reg_put_track, reg_put_reg, Z.eqb_refl, VL. reflexivity. }
    destruct (getitem_hollow m k0 I (hollow_none m N)) as (r2 & m2 & E2 & I1 & H1 & P). rewrite E in E2. injection E2 as <- <-.
    assert (L : hollow m0 /\ reg m0 k0 = Some (Z.of_nat (List.length (ms_values m)))).
    { destruct r1 as [q1|x]; [|injection W as _ _ <-; split; auto]. destruct P as [P1 P2].
      destruct (tracks_hollow e conv c per b q1 P1 P2) as [[T1 _]|[T1 _]]; rewrite T1 in W; [|injection W as _ _ <-; split; auto].
      destruct (walk_leaves _ _ _ _ _ _ _ _ _ _ _ I1 H1 W) as [A1 A2]. split; [exact A1|apply A2, R1]. }
    destruct L as [L1 L2]. destruct (L1 _ _ L2) as (q' & Q1 & Q2 & _). exists q'. auto.
Qed.
