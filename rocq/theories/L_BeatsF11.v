(** Lemmas about M_BeatsF: downbeats under a settled meter. *)
From Coq Require Import Sorted Permutation Lia Lqa Qabs.
From Verif Require Import PyBase M_Float M_Beats M_BeatsF S_Beats S_BeatsF L_Base L_NoteF L_Beats L_Beats2 L_Beats3 L_Beats4 L_BeatsF L_BeatsF2.
Open Scope Q_scope.

Lemma close_nearer : forall x y v, v <= x -> x <= y -> np_isclose_f y v = true -> np_isclose_f x v = true.
Proof.
  intros x y v V X H. unfold np_isclose_f in *. apply Qle_bool_iff in H. apply Qle_bool_iff. eapply Qle_trans; [|exact H].
  assert (A : forall z, v <= z -> Qabsb (fl (z - v)) == fl (z - v)).
  { intros z Z. pose proof (fl_mono 0 (z - v) ltac:(lra)) as M. change (fl 0) with 0 in M. destruct (Qabsb_cases (fl (z - v))) as [[_ ->]|[C _]]; [reflexivity|lra]. }
  rewrite (A x), (A y) by lra. apply fl_mono. lra.
Qed.
Lemma index_zero : forall l start v, (forall x, hd_error l = Some x -> x = start) -> StronglySorted Qle l -> v <= start -> index_close_f l v 0 = 0%nat.
Proof.
  intros l start v HD SO V. unfold index_close_f. destruct l as [|x r]; [reflexivity|]. rewrite (HD x eq_refl) in *. clear HD. cbn [find_close_f]. destruct (np_isclose_f start v) eqn:C; [reflexivity|].
  assert (N : find_close_f r v = None).
  { pose proof (StronglySorted_inv SO) as [_ F]. rewrite Forall_forall in F. clear SO. induction r as [|y r IH]; [reflexivity|]. cbn [find_close_f]. destruct (np_isclose_f y v) eqn:C2.
    - rewrite (close_nearer start y v V (F y (or_introl eq_refl)) C2) in C. discriminate.
    - rewrite IH; [reflexivity|]. intros z Z. apply F. right. auto. }
  rewrite N. reflexivity.
Qed.
Lemma last_cons : forall A (r : list A) a s, last (a :: r) s = last r a.
Proof. intros A. induction r as [|b r IH]; intros a s; [reflexivity|]. change (last (a :: b :: r) s) with (last (b :: r) s). rewrite (IH b s), (IH b a). reflexivity. Qed.
Lemma settled_spans : forall l start rest s, (forall x, hd_error l = Some x -> x = start) -> StronglySorted Qle l -> (forall z, In z (s :: rest) -> ts_time z <= start /\ (0 < ts_num z)%Z) ->
  down_spans_f l 0 s rest = Ok (every (bar_step (ts_num (last rest s))) l).
Proof.
  intros l start. induction rest as [|s' r IH]; intros s HD SO T; cbn [down_spans_f].
  - rewrite (index_zero l start) by (auto; apply T; left; auto). cbn [skipn]. apply stride_ok. apply T. left; auto.
  - rewrite !(index_zero l start) by (auto; apply T; cbn; auto). cbn [slice Nat.sub skipn firstn]. change (slice l 0 0) with (@nil Q). rewrite stride_ok by (apply T; left; auto). cbn [bind].
    rewrite IH; auto. 2: { intros z Z. apply T. right. auto. }
    cbn [bind]. change (every (bar_step (ts_num s)) []) with (@nil Q). cbn [app]. rewrite last_cons. reflexivity.
Qed.
Lemma every_from_nth : forall n l k j, (0 < n)%nat -> nth_error (every_from n k l) j = nth_error l (k + j * n).
Proof.
  intros n. induction l as [|x r IH]; intros k j N; cbn [every_from].
  - destruct j; destruct (k + _)%nat; reflexivity.
  - destruct k as [|k]; [|apply IH; auto]. destruct j as [|j]; [reflexivity|]. cbn [nth_error]. rewrite IH by auto. destruct n as [|n]; [lia|]. cbn [Nat.mul Nat.add nth_error]. f_equal. lia.
Qed.
Lemma last_in_force : forall sigs start s ss, meters sigs -> distinct_times sigs -> (forall s, In s sigs -> ts_time s <= start) -> sort_sigs sigs = s :: ss -> in_force sigs (last ss s) start.
Proof.
  intros sigs start s ss M D T E. pose proof (sort_sorted sigs) as SO. rewrite E in SO.
  assert (I : forall z, In z sigs <-> In z (s :: ss)) by (intros z; rewrite <- E; symmetry; apply sort_in).
  assert (L : In (last ss s) (s :: ss) /\ forall z, In z (s :: ss) -> ts_time z <= ts_time (last ss s)).
  { clear - SO. revert s SO. induction ss as [|a r IH]; intros s SO.
    - cbn. split; [auto|]. intros z [<-|[]]. lra.
    - apply SSQ_cons in SO as [S1 S2]. destruct (IH a S2) as [A B]. 
      rewrite last_cons. split; [right; auto|]. intros z [<-|Z]; [|apply B; auto]. apply Qle_trans with (ts_time a); [apply S1; left; auto|apply B; left; auto]. }
  destruct L as [L1 L2]. split; [apply I; auto|]. left. split; [apply T, I; auto|]. intros z Z _. apply L2, I. auto.
Qed.
Lemma settled_downbeats : forall m sigs others start l n, m <> [] -> meters sigs -> distinct_times sigs -> (forall s, In s sigs -> ts_time s <= start) ->
  (forall s, in_force sigs s start -> beats_per_bar (ts_num s) n) -> (sigs = [] -> n = 4%nat) -> beats_f_are m sigs others start l -> StronglySorted Qle l ->
  exists d, downbeats_f_are m sigs others start d /\ forall j, nth_error d j = nth_error l (j * n).
Proof.
  intros m sigs others start l n NE M D T PB N4 B SO. exists (every n l).
  destruct (beats_f_start m sigs others start l NE B) as [_ [S1 S2]].
  assert (HD : forall x, hd_error l = Some x -> x = start).
  { intros x X. destruct (Qlt_le_dec start (piece_end m (sort_sigs sigs) others)) as [C|C]; [destruct (S1 C) as [r ->]; cbn in X; congruence|rewrite (S2 C) in X; discriminate]. }
  assert (GE : forall x, In x l -> start <= x).
  { intros x X. destruct l as [|y r]; [destruct X|]. pose proof (HD y eq_refl) as E. subst y. pose proof (StronglySorted_inv SO) as [_ F]. rewrite Forall_forall in F. destruct X as [<-|X]; [lra|auto]. }
  assert (DB : (0 < n)%nat /\ downbeats_of_f l (sort_sigs sigs) start = Ok (every n l)).
  { assert (FI : forall n, filter (fun x => Qle_bool start x) (every n l) = every n l).
    { intros n'. assert (X : forall k l, (forall x, In x l -> start <= x) -> filter (fun x => Qle_bool start x) (every_from n' k l) = every_from n' k l).
      { intros k l0. revert k. induction l0 as [|y r IH]; intros k G; [reflexivity|]. cbn [every_from]. destruct k; [|apply IH; intros; apply G; right; auto]. cbn [filter].
        replace (Qle_bool start y) with true by (symmetry; apply Qle_bool_iff, G; left; auto). rewrite IH; auto. intros; apply G; right; auto. }
      apply X. auto. }
    unfold downbeats_of_f. cbv zeta. destruct (sort_sigs sigs) as [|s ss] eqn:E.
    - assert (sigs = []). { pose proof (sort_perm sigs) as PE. rewrite E in PE. apply Permutation_sym, Permutation_nil in PE. auto. }
      rewrite (N4 H) in *. split; [lia|]. rewrite (settled_spans l start); auto. 2: { intros z [<-|[]]. cbn. split; [apply Qle_refl|reflexivity]. } cbn [bind last ts_num]. change (bar_step 4) with 4%nat. rewrite FI. reflexivity.
    - assert (I : forall z, In z (s :: ss) -> In z sigs) by (intros z Z; apply sort_in; rewrite E; auto).
      replace (Qltb start (ts_time s)) with false by (symmetry; apply Qltb_ge; apply T, I; left; auto).
      rewrite (settled_spans l start); auto. 2: { intros z Z. split; [apply T, I; auto|apply M, I; auto]. } cbn [bind].
      pose proof (last_in_force sigs start s ss M D T E) as IF. specialize (PB _ IF). destruct (bar_step_spec (ts_num (last ss s))) as [P1 P2]; [apply M, IF|].
      rewrite (per_unique _ _ _ (proj1 (M _ (proj1 IF))) PB P1). split; auto. rewrite FI. reflexivity. }
  destruct DB as [N0 DB]. split.
  - destruct B as [F B]. exists F. intros fuel L. unfold get_downbeats_f. rewrite (B fuel L). cbn [bind]. rewrite DB. reflexivity.
  - intros j. unfold every. rewrite every_from_nth by auto. reflexivity.
Qed.
