(** Lemmas about M_BeatsF: a last signature that no beat falls on re-bars the span before it. *)
From Coq Require Import Sorted Permutation Lia Lqa Qabs.
From Verif Require Import PyBase M_Float M_Beats M_BeatsF S_Beats S_BeatsF L_Base L_NoteF L_Beats L_Beats2 L_Beats3 L_Beats4 L_BeatsF L_BeatsF2 L_BeatsF6 L_BeatsF11.
Open Scope Q_scope.

Definition far (t x : Q) : Prop := (2 # 100000000) + (2 # 100000) * Qabs t < Qabs (x - t).
Lemma far_not_close : forall t x, far t x -> np_isclose_f x t = false.
Proof. intros t x F. destruct (np_isclose_f x t) eqn:C; [|reflexivity]. apply isclose_f_wide in C. unfold far in F. lra. Qed.
Lemma find_none : forall l t, (forall x, In x l -> far t x) -> find_close_f l t = None.
Proof. induction l as [|x r IH]; intros t F; [reflexivity|]. cbn [find_close_f]. rewrite far_not_close by (apply F; left; auto). rewrite IH; [reflexivity|]. intros; apply F; right; auto. Qed.
Lemma every_in : forall n l k x, In x (every_from n k l) -> In x l.
Proof. intros n. induction l as [|y r IH]; intros k x H; cbn [every_from] in H; [contradiction|]. destruct k; [destruct H as [<- |H]; [left; auto|]|]; right; eapply IH; eauto. Qed.
Lemma filter_all : forall start (l : list Q), (forall x, In x l -> start <= x) -> filter (fun x => Qle_bool start x) l = l.
Proof. intros start. induction l as [|y r IH]; intros H; [reflexivity|]. cbn. replace (Qle_bool start y) with true by (symmetry; apply Qle_bool_iff, H; left; auto). rewrite IH; auto. intros; apply H; right; auto. Qed.
Lemma rebarred : forall m s1 s2 others start l l1 l2 n, m <> [] -> meters [s1; s2] -> start < ts_time s1 -> ts_time s1 <= ts_time s2 -> beats_f_are m [s1; s2] others start l ->
  StronglySorted Qle l -> l = l1 ++ ts_time s1 :: l2 -> (forall x, In x l1 -> far (ts_time s1) x) -> (forall x, In x l -> far (ts_time s2) x) -> beats_per_bar (ts_num s2) n ->
  exists d1 d2, downbeats_f_are m [s1; s2] others start (d1 ++ d2) /\
    (forall j, nth_error d1 j = nth_error l1 (j * 4)) /\ (forall j, nth_error d2 j = nth_error (ts_time s1 :: l2) (j * n)).
Proof.
  intros m s1 s2 others start l l1 l2 n NE M H1 H2 B SO E F1 F2 PB.
  destruct (beats_f_start m [s1; s2] others start l NE B) as [_ [S1 S2]].
  assert (HD : forall x, hd_error l = Some x -> x = start).
  { intros x X. destruct (Qlt_le_dec start (piece_end m (sort_sigs [s1; s2]) others)) as [C|C]; [destruct (S1 C) as [r ->]; cbn in X; congruence|rewrite (S2 C) in X; discriminate]. }
  assert (GE : forall x, In x l -> start <= x).
  { intros x X. destruct l as [|y r]; [destruct X|]. pose proof (HD y eq_refl) as Ey. subst y. pose proof (StronglySorted_inv SO) as [_ F]. rewrite Forall_forall in F. destruct X as [<-|X]; [lra|auto]. }
  destruct (bar_step_spec (ts_num s2)) as [P1 P2]; [apply (M s2); cbn; auto|]. pose proof (per_unique _ _ _ (proj1 (M s2 ltac:(cbn; auto))) PB P1) as EN.
  exists (every 4 l1), (every n (ts_time s1 :: l2)). split; [|split; intro j; unfold every; rewrite every_from_nth; auto; lia].
  assert (ES : sort_sigs [s1; s2] = [s1; s2]). { unfold sort_sigs, py_sort. cbn. replace (Qltb (ts_time s2) (ts_time s1)) with false by (symmetry; apply Qltb_ge; auto). reflexivity. }
  assert (DB : downbeats_of_f l (sort_sigs [s1; s2]) start = Ok (every 4 l1 ++ every n (ts_time s1 :: l2))).
  { rewrite ES. unfold downbeats_of_f. cbv zeta. replace (Qltb start (ts_time s1)) with true by (symmetry; apply Qltb_lt; auto). cbn [down_spans_f ts_time ts_num].
    assert (I1 : forall d, index_close_f l (ts_time s1) d = List.length l1).
    { intro d. unfold index_close_f. rewrite E. rewrite find_close_f_at; [reflexivity|]. intros x Hx. apply far_not_close; auto. }
    assert (I2 : forall d, index_close_f l (ts_time s2) d = d) by (intro d; unfold index_close_f; rewrite find_none; auto).
    rewrite (index_zero l start start) by (auto; apply Qle_refl). rewrite !I1, !I2.
    assert (SL : slice l 0 (List.length l1) = l1). { unfold slice. rewrite E, Nat.sub_0_r. cbn [skipn]. rewrite firstn_app, firstn_all, Nat.sub_diag. cbn. apply app_nil_r. }
    assert (SK : skipn (List.length l1) l = ts_time s1 :: l2) by (rewrite E, skipn_app, skipn_all, Nat.sub_diag; reflexivity).
    rewrite SL, SK. unfold slice. rewrite Nat.sub_diag. cbn [firstn]. rewrite !stride_ok by (try reflexivity; apply M; cbn; auto). cbn [bind].
    change (every (bar_step (ts_num s1)) []) with (@nil Q). change (bar_step 4) with 4%nat. rewrite <- EN. cbn [app]. f_equal. apply filter_all.
    intros x Hx. apply in_app_iff in Hx as [Hx|Hx]; apply every_in in Hx; apply GE; rewrite E; apply in_app_iff; auto. }
  destruct B as [F B]. exists F. intros fuel L. unfold get_downbeats_f. rewrite (B fuel L). cbn [bind]. rewrite DB. reflexivity.
Qed.
