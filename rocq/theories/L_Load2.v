From Coq Require Import Lia Sorted Permutation Arith.
From Verif Require Import PyBase L_Base M_Load S_Load L_Load.
Open Scope Z_scope.

(** ** deltas *)
Lemma abs_delta : forall l t, to_abs t (to_delta t l) = l.
Proof.
  induction l as [|[a m] l IH]; intros t; simpl; [reflexivity|]. replace (a - t + t) with a by lia. replace (t + (a - t)) with a by lia.
  rewrite IH. reflexivity.
Qed.
Lemma delta_abs : forall l t, to_delta t (to_abs t l) = l.
Proof.
  induction l as [|[a m] l IH]; intros t; simpl; [reflexivity|]. replace (a + t - t) with a by lia. replace (t + a) with (a + t) by lia.
  rewrite IH. reflexivity.
Qed.
Lemma delta_nonneg : forall l t, ascending l -> (forall e, In e l -> t <= fst e) -> forall d, In d (to_delta t l) -> 0 <= fst d.
Proof.
  induction l as [|[a m] l IH]; intros t S H d Hd; [destruct Hd|]. apply StronglySorted_inv in S as [S1 S2]. rewrite Forall_forall in S2.
  simpl in Hd. destruct Hd as [<-|Hd]; [simpl; specialize (H _ (or_introl eq_refl)); simpl in H; lia|].
  apply (IH (t + (a - t)) S1); auto. intros e He. specialize (S2 _ He). simpl in S2. lia.
Qed.
Lemma abs_ge : forall l t, (forall d, In d l -> 0 <= fst d) -> forall e, In e (to_abs t l) -> t <= fst e.
Proof.
  induction l as [|[a m] l IH]; intros t H e He; [destruct He|]. pose proof (H _ (or_introl eq_refl)) as A. simpl in A, He.
  destruct He as [<-|He]; [simpl; lia|]. specialize (IH (a + t) (fun d Hd => H d (or_intror Hd)) e He). lia.
Qed.
Lemma abs_ascending : forall l t, (forall d, In d l -> 0 <= fst d) -> ascending (to_abs t l).
Proof.
  induction l as [|[a m] l IH]; intros t H; simpl; constructor.
  - apply IH. intros d Hd. apply H. right; auto.
  - apply Forall_forall. intros e He. apply (abs_ge l (a + t)); auto. intros d Hd. apply H. right; auto.
Qed.

(** ** all tracks *)
Lemma load_track_notes : forall dc s tr evs k, notes_of (load_track dc s tr evs) k = notes_of s k ++ of_key tr k (run_em (fun _ => 0) [] evs).
Proof. intros. unfold load_track. apply notes_run. Qed.
Lemma load_tracks_other : forall dc l s tr pr ch i, i < tr -> notes_of (load_tracks dc s tr l) (pr, ch, i) = notes_of s (pr, ch, i).
Proof.
  induction l as [|e l IH]; intros s tr pr ch i H; simpl; [reflexivity|]. rewrite IH by lia. rewrite load_track_notes. simpl.
  destruct (Z.eqb_spec i tr); [lia|]. apply app_nil_r.
Qed.
Lemma load_tracks_nth : forall dc l s tr pr ch j evs, nth_error l j = Some evs ->
  notes_of (load_tracks dc s tr l) (pr, ch, tr + Z.of_nat j) = notes_of s (pr, ch, tr + Z.of_nat j) ++ of_inst pr ch (run_em (fun _ => 0) [] evs).
Proof.
  induction l as [|e l IH]; intros s tr pr ch j evs E; [destruct j; discriminate|]. destruct j as [|j]; simpl in E.
  - injection E as ->. simpl load_tracks. rewrite load_tracks_other by lia. rewrite load_track_notes. f_equal. unfold of_key.
    rewrite Z.add_0_r, Z.eqb_refl. reflexivity.
  - simpl load_tracks. replace (tr + Z.of_nat (S j)) with (tr + 1 + Z.of_nat j) by lia. rewrite (IH _ _ _ _ _ _ E), load_track_notes.
    unfold of_key. destruct (Z.eqb_spec (tr + 1 + Z.of_nat j) tr); [lia|]. rewrite app_nil_r. reflexivity.
Qed.
Lemma load_file_nth : forall dc tracks pr ch j tk, nth_error tracks j = Some tk ->
  notes_of (load_file dc tracks) (pr, ch, Z.of_nat j) = of_inst pr ch (run_em (fun _ => 0) [] (to_abs 0 tk)).
Proof.
  intros. unfold load_file. pose proof (load_tracks_nth dc (map (to_abs 0) tracks) l_empty 0 pr ch j (to_abs 0 tk)) as L.
  rewrite Z.add_0_l in L. rewrite L; [reflexivity|]. rewrite nth_error_map, H. reflexivity.
Qed.
Lemma perm_of_inst : forall pr ch a b, Permutation a b -> Permutation (of_inst pr ch a) (of_inst pr ch b).
Proof.
  intros pr ch a b P. unfold of_inst. apply Permutation_map. induction P; simpl.
  - constructor.
  - destruct (pair_eqb _ _); auto.
  - destruct (pair_eqb (fst x) _), (pair_eqb (fst y) _); auto; constructor.
  - eapply Permutation_trans; eauto.
Qed.
Lemma run_perm : forall evs, ascending evs -> no_double evs -> Permutation (run_em (fun _ => 0) [] evs) (track_notes (fun _ => 0) evs).
Proof.
  intros. apply (run_spec evs (fun _ => 0) []); auto. split; [constructor|intros ? ? ? []].
Qed.
(** ends ascend *)
Lemma ev_em_end : forall prog o e x, In x (ev_em prog o e) -> pn_end (snd x) = fst e.
Proof.
  intros prog o [t m] x. assert (F : forall b, In x (fin_em prog t b o) -> pn_end (snd x) = t).
  { intros b H. unfold fin_em in H. apply in_flat_map in H as [[[c n] l] [_ H]]. unfold fin_em1 in H; simpl in H.
    destruct l as [|[s v] l]; [destruct H|]. destruct ((s <? t) || b); [|destruct H]. destruct H as [<-|[]]. reflexivity. }
  assert (G : forall ch n, In x (off_em prog t ch n o) -> pn_end (snd x) = t).
  { intros ch n H. unfold off_em in H. destruct (assoc _ _ _); [|destruct H]. apply in_map_iff in H as [y [<- _]]. reflexivity. }
  unfold ev_em; simpl. destruct m; try (intros []); eauto. destruct (0 <? velocity); eauto.
Qed.
Lemma run_em_ends : forall evs prog o, ascending evs ->
  StronglySorted (fun a b => pn_end (snd a) <= pn_end (snd b)) (run_em prog o evs) /\
  (forall x, In x (run_em prog o evs) -> exists e, In e evs /\ pn_end (snd x) = fst e).
Proof.
  induction evs as [|e evs IH]; intros prog o S; simpl; [split; [constructor|intros x []]|].
  apply StronglySorted_inv in S as [S1 S2]. rewrite Forall_forall in S2. destruct (IH (next_p prog e) (next_o prog o e) S1) as [I1 I2].
  split.
  - assert (forall l, (forall x, In x l -> pn_end (snd x) = fst e) ->
      StronglySorted (fun a b => pn_end (snd a) <= pn_end (snd b)) (l ++ run_em (next_p prog e) (next_o prog o e) evs)) as W; [|apply W; intros; eapply ev_em_end; eauto].
    induction l as [|x l IHl]; intros H; simpl; auto. constructor; [apply IHl; intros; apply H; right; auto|].
    apply Forall_forall. intros y Hy. rewrite (H x (or_introl eq_refl)). apply in_app_iff in Hy as [Hy|Hy].
    + rewrite (H y (or_intror Hy)). lia.
    + destruct (I2 y Hy) as [e' [E1 E2]]. rewrite E2. auto.
  - intros x Hx. apply in_app_iff in Hx as [Hx|Hx]; [exists e; split; [left; auto|eapply ev_em_end; eauto]|].
    destruct (I2 x Hx) as [e' [E1 E2]]. exists e'. split; [right; auto|auto].
Qed.
Lemma of_inst_sorted : forall pr ch l, StronglySorted (fun a b => pn_end (snd a) <= pn_end (snd b)) l ->
  StronglySorted (fun a b => pn_end a <= pn_end b) (of_inst pr ch l).
Proof.
  intros pr ch l S. induction S as [|x l S IH H]; [constructor|]. unfold of_inst in *. simpl. destruct (pair_eqb _ _); auto. simpl.
  constructor; auto. rewrite Forall_forall in *. intros y Hy. apply in_map_iff in Hy as [z [<- Hz]]. apply filter_In in Hz as [Hz _]. auto.
Qed.
Lemma C40_file : forall dc tracks i tk pr ch, nth_error tracks i = Some tk -> (forall d, In d tk -> 0 <= fst d) -> no_double (to_abs 0 tk) ->
  Permutation (notes_of (load_file dc tracks) (pr, ch, Z.of_nat i)) (of_inst pr ch (track_notes (fun _ => 0) (to_abs 0 tk))) /\
  StronglySorted (fun a b => pn_end a <= pn_end b) (notes_of (load_file dc tracks) (pr, ch, Z.of_nat i)).
Proof.
  intros dc tracks i tk pr ch E P N. rewrite (load_file_nth _ _ _ _ _ _ E). assert (A := abs_ascending tk 0 P). split.
  - apply perm_of_inst. apply run_perm; auto.
  - apply of_inst_sorted. apply run_em_ends. auto.
Qed.

(** ** no overlap *)
Lemma ending_bound : forall evs pr ch n s t pr', ending pr ch n s evs = Some (t, pr') -> ascending evs ->
  (forall e, In e evs -> s <= fst e) ->
  (exists e, In e evs /\ t = fst e) /\ forall c k w u, In (u, MOn c k w) evs -> 0 < w -> s < u -> t <= u.
Proof.
  induction evs as [|[u m] evs IH]; intros pr ch n s t pr' E S G; [discriminate|]. apply StronglySorted_inv in S as [S1 S2]. rewrite Forall_forall in S2.
  assert (REC : forall pr0, ending pr0 ch n s evs = Some (t, pr') -> (forall c k w, m = MOn c k w -> 0 < w -> s < u -> False) ->
    (exists e, In e ((u, m) :: evs) /\ t = fst e) /\ forall c k w u0, In (u0, MOn c k w) ((u, m) :: evs) -> 0 < w -> s < u0 -> t <= u0).
  { intros pr0 E0 Hm. destruct (IH pr0 ch n s t pr' E0 S1 (fun e He => G e (or_intror He))) as [[e [I1 I2]] I3]. split.
    - exists e. split; [right; auto|auto].
    - intros c k w u0 [H|H] Hw Hs; [injection H as <- ->; exfalso; eauto|eauto]. }
  assert (HERE : t = u -> (exists e, In e ((u, m) :: evs) /\ t = fst e) /\ forall c k w u0, In (u0, MOn c k w) ((u, m) :: evs) -> 0 < w -> s < u0 -> t <= u0).
  { intros ->. split; [exists (u, m); split; [left; auto|auto]|]. intros c k w u0 [H|H] _ _; [injection H as <- _; lia|]. apply (S2 _ H). }
  simpl in E. destruct m; try (apply (REC _ E); intros; discriminate).
  - destruct (Z.ltb_spec 0 velocity).
    + destruct (Z.ltb_spec s u); [injection E as <- _; auto|]. apply (REC _ E). intros; lia.
    + destruct (_ && _); [injection E as <- _; auto|]. apply (REC _ E). intros c k w [= _ _ <-]; lia.
  - destruct (_ && _); [injection E as <- _; auto|]. apply (REC _ E). intros; discriminate.
  - injection E as <- _. auto.
Qed.
Lemma track_notes_split : forall evs prog x, In x (track_notes prog evs) -> exists l1 l2 pr, evs = l1 ++ (pn_start (snd x), MOn (snd (fst x)) (pn_pitch (snd x)) (pn_vel (snd x))) :: l2 /\
  0 < pn_vel (snd x) /\ exists pr', ending pr (snd (fst x)) (pn_pitch (snd x)) (pn_start (snd x)) l2 = Some (pn_end (snd x), pr').
Proof.
  induction evs as [|[t m] evs IH]; intros prog x H; [destruct H|].
  assert (REC : forall p, In x (track_notes p evs) -> exists l1 l2 pr, (t, m) :: evs = l1 ++ (pn_start (snd x), MOn (snd (fst x)) (pn_pitch (snd x)) (pn_vel (snd x))) :: l2 /\
     0 < pn_vel (snd x) /\ exists pr', ending pr (snd (fst x)) (pn_pitch (snd x)) (pn_start (snd x)) l2 = Some (pn_end (snd x), pr')).
  { intros p Hp. destruct (IH p x Hp) as [l1 [l2 [pr [E R]]]]. exists ((t, m) :: l1), l2, pr. rewrite E. auto. }
  destruct m; simpl in H; eauto. apply in_app_iff in H as [H|H]; eauto. destruct (Z.ltb_spec 0 velocity); [|destruct H].
  destruct (ending (prog ch) ch note t evs) as [[e pr]|] eqn:E; [|destruct H]. destruct H as [<-|[]]. simpl.
  exists [], evs, (prog ch). split; [reflexivity|]. split; [auto|]. exists pr. auto.
Qed.
Lemma ascending_app_r : forall l1 l2, ascending (l1 ++ l2) -> ascending l2.
Proof. induction l1; intros l2 H; auto. apply StronglySorted_inv in H as [H _]. auto. Qed.
Lemma ascending_app_l : forall l1 a l2, ascending (l1 ++ a :: l2) -> forall e, In e l1 -> fst e <= fst a.
Proof.
  induction l1 as [|b l1 IH]; intros a l2 H e He; [destruct He|]. simpl in H. apply StronglySorted_inv in H as [H1 H2]. rewrite Forall_forall in H2.
  destruct He as [<-|He]; eauto. apply H2. apply in_or_app; right; left; auto.
Qed.
Lemma no_overlap : forall evs prog x y, ascending evs -> In x (track_notes prog evs) -> In y (track_notes prog evs) ->
  pn_start (snd x) <= pn_end (snd x) /\ (pn_start (snd x) < pn_start (snd y) -> pn_end (snd x) <= pn_start (snd y)).
Proof.
  intros evs prog x y S Hx Hy. destruct (track_notes_split _ _ _ Hx) as [l1 [l2 [pr [E [V [pr' En]]]]]].
  assert (S' := S). rewrite E in S'. assert (S2 := ascending_app_r _ _ S'). apply StronglySorted_inv in S2 as [S2 S3]. rewrite Forall_forall in S3. simpl in S3.
  destruct (ending_bound _ _ _ _ _ _ _ En S2 S3) as [[e [I1 I2]] I3]. split; [rewrite I2; apply S3; auto|].
  intros L. destruct (track_notes_split _ _ _ Hy) as [m1 [m2 [q [F [W _]]]]].
  assert (In (pn_start (snd y), MOn (snd (fst y)) (pn_pitch (snd y)) (pn_vel (snd y))) evs) as Hin by (rewrite F; apply in_or_app; right; left; auto).
  rewrite E in Hin. apply in_app_iff in Hin as [Hin|[Hin|Hin]].
  - assert (A := ascending_app_l _ _ _ S' _ Hin). simpl in A. lia.
  - injection Hin as Hin _ _ _. lia.
  - eapply I3; eauto.
Qed.
Lemma of_inst_In : forall pr ch x l, In x (of_inst pr ch l) -> In ((pr, ch), x) l.
Proof.
  intros pr ch x l H. unfold of_inst in H. apply in_map_iff in H as [[k y] [<- H]]. apply filter_In in H as [H1 H2]. simpl in *.
  destruct (pair_eqb_spec k (pr, ch)) as [->|]; [auto|discriminate].
Qed.
Lemma C82_file : forall dc tracks i tk p1 c1 p2 c2 a b, nth_error tracks i = Some tk -> (forall d, In d tk -> 0 <= fst d) -> no_double (to_abs 0 tk) ->
  In a (notes_of (load_file dc tracks) (p1, c1, Z.of_nat i)) -> In b (notes_of (load_file dc tracks) (p2, c2, Z.of_nat i)) ->
  pn_start a <= pn_end a /\ (pn_start a < pn_start b -> pn_end a <= pn_start b).
Proof.
  intros dc tracks i tk p1 c1 p2 c2 a b E P N Ha Hb. assert (A := abs_ascending tk 0 P).
  apply (Permutation_in _ (proj1 (C40_file dc tracks i tk p1 c1 E P N))) in Ha.
  apply (Permutation_in _ (proj1 (C40_file dc tracks i tk p2 c2 E P N))) in Hb.
  apply of_inst_In in Ha, Hb. apply (no_overlap _ _ _ _ A Ha Hb).
Qed.

(** ** which instruments exist *)
Definition has_notes (dc : Z) (s : lstate) : Prop := forall k i, inst_of s k = Some i ->
  pi_notes i <> [] /\ pi_prog i = fst (fst k) /\ pi_drum i = (snd (fst k) =? dc).
Lemma has_notes_emit : forall dc s prog tr ch n, has_notes dc s -> has_notes dc (emit dc s prog tr ch n).
Proof.
  intros dc s prog tr ch n H k i. unfold emit. rewrite inst_append, inst_get_new. destruct (ikey_eqb_spec k (prog ch, ch, tr)) as [->|Ne].
  - destruct (inst_of s (prog ch, ch, tr)) eqn:E.
    + simpl. intros [= <-]. simpl. split; [destruct (pi_notes p); discriminate|]. apply H in E. tauto.
    + destruct (ikey_eqb_spec (prog ch, ch, tr) (prog ch, ch, tr)); [|congruence]. simpl. intros [= <-]. simpl. repeat split; discriminate.
  - destruct (inst_of s k) eqn:E; [intros [= <-]; auto|]. destruct (ikey_eqb_spec (prog ch, ch, tr) k); [congruence|discriminate].
Qed.
Lemma step_inv : forall (P : lstate -> Prop) dc tr,
  (forall s prog ch n, P s -> P (emit dc s prog tr ch n)) ->
  (forall s s', l_insts s' = l_insts s -> P s -> P s') ->
  forall evs s o prog, P s -> P (fst (fst (fold_left (step dc tr) evs (s, o, prog)))).
Proof.
  intros P dc tr HE HI. assert (F : forall prog t eos o s, P s -> P (fst (finish_notes dc prog tr t eos s o))).
  { intros prog t eos o. unfold finish_notes, fst. induction o as [|[[c n] l] o IH]; intros s H; simpl; auto. apply IH. destruct l as [|[st v] l]; auto.
    destruct ((st <? t) || eos); auto. }
  assert (G : forall prog t ch n o s, P s -> P (fst (note_off dc prog tr t ch n s o))).
  { intros prog t ch n o s H. unfold note_off. destruct (assoc _ _ _) as [v|]; auto. simpl. revert s H.
    induction (filter (fun x => negb (fst x =? t)) v) as [|x l IH]; intros s H; simpl; auto. }
  induction evs as [|[t m] evs IH]; intros s o prog H; simpl; auto. destruct m; simpl; try (apply IH; auto; fail).
  - apply IH. eapply HI; [|exact H]. reflexivity.
  - destruct (0 <? velocity).
    + pose proof (F prog t false o s H) as X. simpl in X. apply IH. exact X.
    + pose proof (G prog t ch note o s H) as X. destruct (note_off dc prog tr t ch note s o). apply IH. exact X.
  - pose proof (G prog t ch note o s H) as X. destruct (note_off dc prog tr t ch note s o). apply IH. exact X.
  - pose proof (get_cell_insts s (prog ch) ch tr) as X. destruct (get_cell s (prog ch) ch tr). apply IH. eapply HI; [|exact H]. exact X.
  - pose proof (get_cell_insts s (prog ch) ch tr) as X. destruct (get_cell s (prog ch) ch tr). apply IH. eapply HI; [|exact H]. exact X.
  - pose proof (F prog t true o s H) as X. simpl in X. apply IH. exact X.
Qed.
Lemma has_notes_file : forall dc tracks, has_notes dc (load_file dc tracks).
Proof.
  intros. unfold load_file. generalize (map (to_abs 0) tracks). intros l. assert (has_notes dc l_empty) as H by (intros k i; discriminate).
  revert H. generalize 0. generalize l_empty. induction l as [|e l IH]; intros s tr H; simpl; auto. apply IH. unfold load_track.
  apply step_inv; auto.
  - intros. apply has_notes_emit; auto.
  - intros s1 s2 E Hs k i. unfold inst_of. rewrite E. apply Hs.
Qed.
