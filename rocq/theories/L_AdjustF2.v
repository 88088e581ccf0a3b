(** What interpolating in double precision does to notes, events and time signatures. *)
From Coq Require Import Sorted Permutation Lqa Lia.
From Verif Require Import PyBase L_Base M_Note L_Note L_Note2 M_Float L_Float L_Float2 L_NoteF L_Snap L_UtilsF3 M_Beats M_Adjust S_Adjust L_Adjust L_Adjust2 L_Adjust3 L_Adjust4 S_Snap S_AdjustF M_AdjustF L_AdjustF.
Open Scope Q_scope.

Lemma notes_carried_f : forall D m (l : list (anote D)), carried
  (fun n => first_x m <= an_start n /\ an_end n <= last_x m /\ pos (interp_f m (an_start n)) < pos (interp_f m (an_end n)))
  (fun n n' => an_start n' = pos (interp_f m (an_start n)) /\ an_end n' = pos (interp_f m (an_end n)) /\ an_data n' = an_data n)
  l (adjust_notes_f m l).
Proof.
  intros D m l. unfold adjust_notes_f. induction l as [|n l IH]; [constructor|]. cbn [filter].
  destruct (Qle_bool (first_x m) (an_start n) && Qle_bool (an_end n) (last_x m)) eqn:E.
  - apply andb_prop in E as [E1 E2]. apply Qle_bool_iff in E1, E2. cbn [map filter]. change (an_end (adjust_note_f m n)) with (pos (interp_f m (an_end n))). change (an_start (adjust_note_f m n)) with (pos (interp_f m (an_start n))).
    destruct (Qle_bool (pos (interp_f m (an_end n))) (pos (interp_f m (an_start n)))) eqn:E3; cbn [negb].
    + apply carried_drop; [|exact IH]. apply Qle_bool_iff in E3. intros (_ & _ & K). lra.
    + apply Qle_bool_false in E3. apply carried_keep; auto.
  - apply carried_drop; [|exact IH]. intros (K1 & K2 & _). apply Qle_bool_iff in K1, K2. rewrite K1, K2 in E. discriminate.
Qed.

Section Ev.
Variable A : Type. Variable time : A -> Q. Variable set_time : A -> Q -> A.
Hypothesis ST : forall e t, time (set_time e t) = t.
Let lt := fun a b => Qltb (time a) (time b).
Lemma retimed_list_f : forall m l, retimed_in_order time set_time (interp_f m) (first_y m) (last_y m) l (adjust_list_f time set_time m l).
Proof.
  intros m l. unfold adjust_list_f, keep_in_range. fold lt. set (mv := fun e => set_time e (interp_f m (time e))).
  set (srt := py_sort lt l). rewrite !filter_map2.
  assert (T : forall e, time (mv e) = interp_f m (time e)) by (intro e; apply ST).
  set (at0 := filter (fun x => Qeq_bool (time (mv x)) (first_y m)) srt).
  exists srt, (match map mv at0 with [] => [] | a :: r => [last r a] end).
  assert (H0 : match map mv at0 with [] => [] | a :: r => [last r a] end = match at0 with [] => [] | a :: r => [mv (last r a)] end).
  { destruct at0 as [|a r]; [reflexivity|]. cbn [map]. rewrite last_map2. reflexivity. }
  split; [apply Permutation_sym, py_sort_perm|]. split; [apply (ev_sort time l)|]. split.
  - f_equal. f_equal. apply filter_ext. intro a. rewrite T. reflexivity.
  - rewrite H0. unfold at0, srt. unfold lt. rewrite (sort_filter time). fold lt. set (p := fun x => Qeq_bool (time (mv x)) (first_y m)).
    assert (Pp : forall e, p e = true <-> interp_f m (time e) == first_y m) by (intro e; unfold p; rewrite T; apply Qeq_bool_iff).
    destruct (filter p l) as [|a r] eqn:Ef.
    + left. cbn. split; [reflexivity|]. intros e He K. apply Pp in K. assert (In e (filter p l)) by (apply filter_In; auto). rewrite Ef in H. contradiction.
    + right. destruct (py_sort lt (a :: r)) as [|b s] eqn:Es.
      { pose proof (py_sort_perm lt (a :: r)) as P. rewrite Es in P. apply Permutation_sym, Permutation_nil in P. discriminate. }
      destruct (last_sort time (a :: r) b ltac:(discriminate)) as (l1 & l2 & E & H1 & H2). fold lt in E, H1, H2. rewrite Es in E, H1, H2.
      assert (El : last (b :: s) b = last s b). { destruct s; reflexivity. } rewrite El in *.
      rewrite E in Ef. destruct (filter_split _ _ _ _ _ _ Ef) as (k1 & k2 & El' & F1 & F2 & Pe).
      exists k1, (last s b), k2. split; [exact El'|]. split; [apply Pp; exact Pe|]. split; [reflexivity|]. split.
      * intros e' He' K. apply H1. rewrite <- F1. apply filter_In. split; auto. apply Pp; auto.
      * intros e' He' K. apply H2. rewrite <- F2. apply filter_In. split; auto. apply Pp; auto.
Qed.
End Ev.

Lemma within_bounds : forall a b, 0 <= b -> within warp_error a b -> b - b * warp_error <= a /\ a <= b + b * warp_error.
Proof. intros a b B W. unfold within in W. destruct (Qabsb_spec (a - b)) as [[H E]|[H E]]; rewrite E in W; assert (0 <= b * warp_error) by (apply Qmult_le_0_compat; auto; discriminate); lra. Qed.
Lemma warp_e : 0 <= warp_error /\ warp_error <= 1 # 1000000. Proof. split; discriminate. Qed.
(** Order is kept up to the error. *)
Lemma warp_order : forall m x x', asc m -> nonneg m -> x <= x' -> interp_f m x <= interp_f m x' * (1 + 4 * warp_error).
Proof.
  intros m x x' A P H. pose proof (interp_near m x A P) as N1. pose proof (interp_near m x' A P) as N2. pose proof (interp_mono m x x' A H) as M.
  pose proof (near6_within _ _ N1) as W1. pose proof (near6_within _ _ N2) as W2. destruct N1 as (_ & B1 & _). destruct N2 as (_ & B2 & _).
  destruct (within_bounds _ _ B1 W1) as [_ U]. destruct (within_bounds _ _ B2 W2) as [L _]. destruct warp_e as [E1 E2].
  set (a := interp m x) in *. set (b := interp m x') in *. set (ga := interp_f m x) in *. set (gb := interp_f m x') in *. set (e := warp_error) in *. clearbody a b ga gb e.
  assert (H1 : ga <= b * (1 + e)) by nra. assert (H2 : b * (1 - e) <= gb) by lra.
  assert (H3 : b * (1 + e) <= b * (1 - e) * (1 + 4 * e)).
  { assert (X : b * (1 - e) * (1 + 4 * e) == b * (1 + e) + b * (e * (2 - 4 * e))) by ring. rewrite X. assert (0 <= b * (e * (2 - 4 * e))) by (apply Qmult_le_0_compat; auto; apply Qmult_le_0_compat; lra). lra. }
  assert (H4 : b * (1 - e) * (1 + 4 * e) <= gb * (1 + 4 * e)) by (apply Qmult_le_compat_r; lra). lra.
Qed.
Lemma retimed_order : forall A (time : A -> Q) (set_time : A -> Q -> A) m l l', (forall e t, time (set_time e t) = t) -> asc m -> m <> [] -> nonneg m ->
  retimed_in_order time set_time (interp_f m) (first_y m) (last_y m) l l' -> nearly_ordered time l'.
Proof.
  intros A time set_time m l l' ST S NE P (s & h & _ & SS & -> & Hh). unfold nearly_ordered. apply ss_app.
  - destruct Hh as [[-> _]|(? & ? & ? & _ & _ & -> & _)]; repeat constructor.
  - apply sorted_to_map. clear Hh. induction SS as [|a s SS IH F]; cbn [filter]; [constructor|]. destruct (_ && _); auto. constructor; auto.
    rewrite Forall_forall in *. intros b Hb. apply filter_In in Hb as [Hb _]. rewrite !ST. apply warp_order; auto.
  - intros x y Hx Hy. assert (Tx : time x == first_y m). { destruct Hh as [[-> _]|(l1 & e & l2 & _ & K & -> & _)]; [contradiction|]. destruct Hx as [<- |[]]. rewrite ST. exact K. }
    apply in_map_iff in Hy as (z & <- & Hz). apply filter_In in Hz as [_ Hz]. apply andb_prop in Hz as [Hz _]. apply Qltb_lt in Hz. rewrite ST.
    assert (0 <= interp_f m (time z)) by (destruct (interp_near m (time z) S P); auto). destruct warp_e as [E1 E2]. assert (0 <= interp_f m (time z) * (4 * warp_error)) by (apply Qmult_le_0_compat; lra). lra.
Qed.

(* time signatures *)
Lemma move_last_split : forall d l, existsb (fun t => Qle_bool (ts_time t) d) l = true ->
  exists l1 s l2, l = l1 ++ s :: l2 /\ ts_time s <= d /\ (forall t, In t l2 -> d < ts_time t) /\
  move_last (fun t => Qle_bool (ts_time t) d) d l = l1 ++ set_ts s d :: l2.
Proof.
  intros d l. induction l as [|a l IH]; intro H; [discriminate|]. cbn [existsb move_last] in *.
  destruct (existsb (fun t => Qle_bool (ts_time t) d) l) eqn:E.
  - destruct (IH eq_refl) as (l1 & s & l2 & -> & K1 & K2 & K3). exists (a :: l1), s, l2. rewrite K3. repeat split; auto.
  - rewrite orb_false_r in H. rewrite H. exists [], a, l. apply Qle_bool_iff in H. repeat split; auto.
    intros t Ht. destruct (Qlt_le_dec d (ts_time t)) as [K|K]; auto. exfalso. assert (X : existsb (fun t => Qle_bool (ts_time t) d) l = true).
    { apply existsb_exists. exists t. split; auto. apply Qle_bool_iff; auto. } congruence.
Qed.
Lemma sigs_spec_f : forall m downs l, let l1 := adjust_list_f ts_time set_ts m l in
  ((forall x, In x downs -> x < first_x m) -> adjust_sigs_f m downs l = l1) /\
  (forall a x b, downs = a ++ x :: b -> (forall y, In y a -> y < first_x m) -> first_x m <= x -> let d := interp_f m x in
    ((forall t, In t l1 -> d < ts_time t) /\ adjust_sigs_f m downs l = mkTS 4 4 d :: l1) \/
    exists k1 s0 k2, l1 = k1 ++ s0 :: k2 /\ ts_time s0 <= d /\ (forall t, In t k2 -> d < ts_time t) /\
      adjust_sigs_f m downs l = filter (fun t => Qle_bool d (ts_time t)) k1 ++ mkTS (ts_num s0) (ts_den s0) d :: k2).
Proof.
  intros m downs l l1. unfold adjust_sigs_f. fold l1. cbv zeta. split.
  - intro H. assert (E : filter (fun d => Qle_bool (first_x m) d) downs = []).
    { clear -H. induction downs as [|a r IH]; [reflexivity|]. cbn. assert (E : Qle_bool (first_x m) a = false) by (apply Qle_bool_false, H; left; auto). rewrite E. apply IH. intros; apply H; right; auto. }
    rewrite E. reflexivity.
  - intros a x b E Ha Hx. assert (Ef : exists r, filter (fun d => Qle_bool (first_x m) d) downs = x :: r).
    { subst downs. clear -Ha Hx. induction a as [|y a IH]; cbn.
      - apply Qle_bool_iff in Hx. rewrite Hx. eauto.
      - assert (E : Qle_bool (first_x m) y = false) by (apply Qle_bool_false, Ha; left; auto). rewrite E. apply IH. intros; apply Ha; right; auto. }
    destruct Ef as [r ->]. cbn [map]. set (d := interp_f m x).
    destruct (existsb (fun t => Qle_bool (ts_time t) d) l1) eqn:EX.
    + right. destruct (move_last_split d l1 EX) as (k1 & s & k2 & E1 & K1 & K2 & K3). exists k1, s, k2. rewrite K3. split; auto. split; auto. split; auto.
      rewrite filter_app. cbn [filter]. unfold set_ts at 1. cbn [ts_time]. assert (R : Qle_bool d d = true) by (apply Qle_bool_iff; lra). rewrite R. f_equal. unfold set_ts. f_equal.
      clear -K2. induction k2 as [|t k IH]; [reflexivity|]. cbn. assert (E : Qle_bool d (ts_time t) = true) by (apply Qle_bool_iff; apply Qlt_le_weak, K2; left; auto). rewrite E. f_equal. apply IH. intros; apply K2; right; auto.
    + left. split; [|reflexivity]. intros t Ht. destruct (Qlt_le_dec d (ts_time t)) as [K|K]; auto. exfalso. assert (X : existsb (fun t => Qle_bool (ts_time t) d) l1 = true).
      { apply existsb_exists. exists t. split; auto. apply Qle_bool_iff; auto. } congruence.
Qed.
