(** Interpolation, and what it does to notes, events and time signatures. *)
From Coq Require Import Sorted Permutation Lqa Lia.
From Verif Require Import PyBase L_Base M_Note L_Note L_Note2 M_Beats M_Adjust S_Adjust L_Adjust.
Open Scope Q_scope.

Ltac qc a := let C := fresh "C" in destruct a eqn:C; [apply Qltb_lt in C|apply Qltb_ge in C].
Notation asc := (StronglySorted (fun a b : Q * Q => fst a < fst b /\ snd a <= snd b)).
Lemma slope : forall x0 y0 x1 y1, x0 < x1 -> y0 <= y1 -> 0 <= (y1 - y0) / (x1 - x0) /\ (y1 - y0) / (x1 - x0) * (x1 - x0) == y1 - y0.
Proof.
  intros x0 y0 x1 y1 H1 H2. split; [|field; lra]. apply Qle_shift_div_l; lra.
Qed.
Lemma asc_tail : forall a m c, asc (a :: m) -> In c m -> fst a < fst c /\ snd a <= snd c.
Proof. intros a m c S H. inversion S as [|? ? S1 F]; subst. rewrite Forall_forall in F. auto. Qed.
Lemma interp_from_image : forall rest x0 y0 x, asc ((x0, y0) :: rest) -> x0 <= x -> image ((x0, y0) :: rest) x (interp_from x0 y0 rest x).
Proof.
  induction rest as [|[x1 y1] r IH]; intros x0 y0 x S H.
  - cbn [interp_from]. split; [|split].
    + intros x2 y2 r E _. injection E as -> -> _. lra.
    + intros x2 y2 r E _. destruct r as [|? [|? ?]]; inversion E; subst; lra.
    + intros l r x2 y2 x3 y3 E _. destruct l as [|? [|? ?]]; inversion E.
  - pose proof (asc_tail _ _ (x1, y1) S (or_introl eq_refl)) as [L1 L2]. cbn [fst snd] in L1, L2.
    assert (S1 : asc ((x1, y1) :: r)) by (inversion S; auto). destruct (slope x0 y0 x1 y1 L1 L2) as [K1 K2].
    remember ((y1 - y0) / (x1 - x0)) as k eqn:Ek. cbn [interp_from]. rewrite <- Ek. qc (Qltb x x1).
    + split; [|split].
      * intros x2 y2 r2 E Hx. injection E as -> -> _. assert (x == x2) by lra. rewrite H0. ring.
      * intros x2 y2 r2 E Hx. exfalso. destruct r2 as [|c r2]; cbn in E; [discriminate|]. injection E as Ec E.
        assert (Hin : In (x2, y2) ((x1, y1) :: r)) by (rewrite E; apply in_app_iff; right; left; auto).
        destruct Hin as [Hin|Hin]; [injection Hin as <- <-; lra|]. pose proof (asc_tail _ _ _ S1 Hin) as [Q1 _]. cbn in Q1. lra.
      * intros l r2 x2 y2 x3 y3 E Hx. destruct l as [|c l]; cbn in E.
        -- injection E as -> -> -> -> _. rewrite <- K2. ring.
        -- exfalso. injection E as Ec E. assert (Hin : In (x2, y2) ((x1, y1) :: r)) by (rewrite E; apply in_app_iff; right; left; auto).
           destruct Hin as [Hin|Hin]; [injection Hin as <- <-; lra|]. pose proof (asc_tail _ _ _ S1 Hin) as [Q1 _]. cbn in Q1. lra.
    + destruct (IH x1 y1 x S1 C) as (I1 & I2 & I3). split; [|split].
      * intros x2 y2 r2 E Hx. injection E as -> -> _. exfalso. lra.
      * intros x2 y2 r2 E Hx. destruct r2 as [|c r2]; cbn in E; [discriminate|]. injection E as Ec E. apply (I2 x2 y2 r2 E Hx).
      * intros l r2 x2 y2 x3 y3 E Hx. destruct l as [|c l]; cbn in E.
        -- injection E as -> -> -> -> _. rewrite (I1 x3 y3 r eq_refl ltac:(lra)). assert (x == x3) by lra. rewrite H0. reflexivity.
        -- injection E as Ec E. apply (I3 l r2 x2 y2 x3 y3 E Hx).
Qed.
Lemma interp_image : forall m x, asc m -> image m x (interp m x).
Proof.
  intros [|[x0 y0] r] x S.
  - split; [|split]; intros; try discriminate. destruct r; discriminate. destruct l; discriminate.
  - cbn [interp]. qc (Qltb x x0); [|apply interp_from_image; auto].
    assert (LB : forall c, In c ((x0, y0) :: r) -> x0 <= fst c).
    { intros c [<- |Hc]; cbn; [lra|]. pose proof (asc_tail _ _ _ S Hc) as [Q1 _]. cbn in Q1. lra. }
    split; [|split].
    + intros x2 y2 r2 E _. injection E as -> -> _. reflexivity.
    + intros x2 y2 r2 E Hx. exfalso. assert (Hin : In (x2, y2) ((x0, y0) :: r)) by (rewrite E; apply in_app_iff; right; left; auto).
      specialize (LB _ Hin). cbn in LB. lra.
    + intros l r2 x2 y2 x3 y3 E Hx. exfalso. assert (Hin : In (x2, y2) ((x0, y0) :: r)) by (rewrite E; apply in_app_iff; right; left; auto).
      specialize (LB _ Hin). cbn in LB. lra.
Qed.
Lemma last_split : forall A (m : list A) d, m <> [] -> exists r, m = r ++ [last m d].
Proof. intros A m d H. exists (removelast m). apply app_removelast_last; auto. Qed.
(** Every time has exactly one image. *)
Lemma image_unique : forall m x y y', asc m -> m <> [] -> image m x y -> image m x y' -> y == y'.
Proof.
  intros m x y y' S NE. assert (FIND : (exists x0 y0 r, m = (x0, y0) :: r /\ x <= x0) \/ (exists x1 y1 r, m = r ++ [(x1, y1)] /\ x1 <= x) \/
    exists l r x0 y0 x1 y1, m = l ++ (x0, y0) :: (x1, y1) :: r /\ x0 <= x <= x1 /\ x0 < x1).
  { induction m as [|[x0 y0] [|[x1 y1] r] IH]; [congruence| |].
    - destruct (Qlt_le_dec x x0); [left; exists x0, y0, []; split; auto; lra|]. right; left. exists x0, y0, []. auto.
    - destruct (Qlt_le_dec x x0); [left; exists x0, y0, ((x1, y1) :: r); split; auto; lra|]. right.
      pose proof (asc_tail _ _ (x1, y1) S (or_introl eq_refl)) as [L1 _]. cbn in L1.
      destruct (Qlt_le_dec x x1); [right; exists [], r, x0, y0, x1, y1; repeat split; auto; lra|].
      assert (S1 : asc ((x1, y1) :: r)) by (inversion S; auto).
      destruct (IH S1 ltac:(discriminate)) as [(x2 & y2 & r2 & E & Q1)|[(x2 & y2 & r2 & E & Q1)|(l & r2 & x2 & y2 & x3 & y3 & E & Q1)]].
      + injection E as -> -> _. right. exists [], r, x0, y0, x2, y2. repeat split; auto; lra.
      + left. exists x2, y2, ((x0, y0) :: r2). rewrite E. auto.
      + right. exists ((x0, y0) :: l), r2, x2, y2, x3, y3. rewrite E. auto. }
  intros (A1 & A2 & A3) (B1 & B2 & B3). destruct FIND as [(x2 & y2 & r2 & E & Q1)|[(x2 & y2 & r2 & E & Q1)|(l & r2 & x2 & y2 & x3 & y3 & E & Q1 & Q2)]].
  - rewrite (A1 _ _ _ E Q1), (B1 _ _ _ E Q1). reflexivity.
  - rewrite (A2 _ _ _ E Q1), (B2 _ _ _ E Q1). reflexivity.
  - pose proof (A3 _ _ _ _ _ _ E Q1) as P1. pose proof (B3 _ _ _ _ _ _ E Q1) as P2.
    assert ((y - y') * (x3 - x2) == 0) by lra. apply Qmult_integral in H as [H|H]; lra.
Qed.
Lemma interp_from_low : forall rest x0 y0 x, asc ((x0, y0) :: rest) -> x0 <= x -> y0 <= interp_from x0 y0 rest x.
Proof.
  induction rest as [|[x1 y1] r IH]; intros x0 y0 x S H; cbn [interp_from]; [lra|].
  pose proof (asc_tail _ _ (x1, y1) S (or_introl eq_refl)) as [L1 L2]. cbn [fst snd] in L1, L2. destruct (slope x0 y0 x1 y1 L1 L2) as [K1 K2].
  qc (Qltb x x1); [nra|]. assert (S1 : asc ((x1, y1) :: r)) by (inversion S; auto). specialize (IH x1 y1 x S1 C). lra.
Qed.
Lemma interp_from_mono : forall rest x0 y0 x x', asc ((x0, y0) :: rest) -> x0 <= x -> x <= x' -> interp_from x0 y0 rest x <= interp_from x0 y0 rest x'.
Proof.
  induction rest as [|[x1 y1] r IH]; intros x0 y0 x x' S H H'; cbn [interp_from]; [lra|].
  pose proof (asc_tail _ _ (x1, y1) S (or_introl eq_refl)) as [L1 L2]. cbn [fst snd] in L1, L2. destruct (slope x0 y0 x1 y1 L1 L2) as [K1 K2].
  assert (S1 : asc ((x1, y1) :: r)) by (inversion S; auto).
  qc (Qltb x x1); qc (Qltb x' x1); try lra.
  - nra.
  - pose proof (interp_from_low r x1 y1 x' S1 C0). nra.
  - apply IH; auto.
Qed.
Lemma interp_mono : forall m x x', asc m -> x <= x' -> interp m x <= interp m x'.
Proof.
  intros [|[x0 y0] r] x x' S H; cbn [interp]; [lra|]. qc (Qltb x x0); qc (Qltb x' x0); try lra.
  - apply interp_from_low; auto.
  - apply interp_from_mono; auto.
Qed.
Lemma interp_comp : forall m x x', asc m -> x == x' -> interp m x == interp m x'.
Proof. intros m x x' S H. apply Qle_antisym; apply interp_mono; auto; lra. Qed.
Lemma interp_at : forall m x y, asc m -> In (x, y) m -> interp m x == y.
Proof.
  intros m x y S H. destruct (interp_image m x S) as (I1 & I2 & I3). apply in_split in H as (l & r & E).
  destruct r as [|[x1 y1] r]; [apply (I2 x y l E); lra|].
  assert (L : x < x1). { rewrite E in S. clear -S. induction l as [|a l IH]; cbn in S; inversion S as [|? ? S1 F]; subst; auto. rewrite Forall_forall in F. destruct (F (x1, y1) (or_introl eq_refl)). auto. }
  pose proof (I3 l r x y x1 y1 E ltac:(lra)) as K. assert ((interp m x - y) * (x1 - x) == 0) by lra. apply Qmult_integral in H as [H|H]; lra.
Qed.
Lemma first_in : forall m, m <> [] -> In (first_x m, first_y m) m.
Proof. intros [|[x y] m] H; [congruence|]. left; auto. Qed.
Lemma last_in : forall m, m <> [] -> In (last_x m, last_y m) m.
Proof. intros m H. destruct (last_split _ m (0, 0) H) as [r E]. unfold last_x, last_y. rewrite <- surjective_pairing. rewrite E at 2. apply in_app_iff; right; left; auto. Qed.
Lemma interp_range : forall m x, asc m -> m <> [] -> first_y m <= interp m x <= last_y m.
Proof.
  intros m x S NE. pose proof (interp_at m _ _ S (first_in m NE)) as A. pose proof (interp_at m _ _ S (last_in m NE)) as B.
  destruct (interp_image m x S) as (I1 & I2 & _). split.
  - destruct (Qlt_le_dec x (first_x m)) as [H|H].
    + destruct m as [|[x0 y0] r]; [congruence|]. cbn in *. qc (Qltb x x0); lra.
    + rewrite <- A. apply interp_mono; auto.
  - destruct (Qlt_le_dec (last_x m) x) as [H|H].
    + destruct (last_split _ m (0, 0) NE) as [r E]. rewrite (I2 (last_x m) (last_y m) r); [lra| |lra]. unfold last_x, last_y. rewrite <- surjective_pairing. exact E.
    + rewrite <- B. apply interp_mono; auto.
Qed.

(* notes *)
Definition pos (y : Q) : Q := if Qltb 0 y then y else 0.
Lemma notes_carried : forall D m (l : list (anote D)), carried
  (fun n => first_x m <= an_start n /\ an_end n <= last_x m /\ pos (interp m (an_start n)) < pos (interp m (an_end n)))
  (fun n n' => an_start n' = pos (interp m (an_start n)) /\ an_end n' = pos (interp m (an_end n)) /\ an_data n' = an_data n)
  l (adjust_notes m l).
Proof.
  intros D m l. unfold adjust_notes. induction l as [|n l IH]; [constructor|]. cbn [filter].
  destruct (Qle_bool (first_x m) (an_start n) && Qle_bool (an_end n) (last_x m)) eqn:E.
  - apply andb_prop in E as [E1 E2]. apply Qle_bool_iff in E1, E2. cbn [map filter]. change (an_end (adjust_note m n)) with (pos (interp m (an_end n))). change (an_start (adjust_note m n)) with (pos (interp m (an_start n))).
    destruct (Qle_bool (pos (interp m (an_end n))) (pos (interp m (an_start n)))) eqn:E3; cbn [negb].
    + apply carried_drop; [|exact IH]. apply Qle_bool_iff in E3. intros (_ & _ & K). lra.
    + apply Qle_bool_false in E3. apply carried_keep; auto.
  - apply carried_drop; [|exact IH]. intros (K1 & K2 & _). apply Qle_bool_iff in K1, K2. rewrite K1, K2 in E. discriminate.
Qed.

(* events *)
Lemma filter_split : forall A (p : A -> bool) l l1 e l2, filter p l = l1 ++ e :: l2 -> exists k1 k2, l = k1 ++ e :: k2 /\ filter p k1 = l1 /\ filter p k2 = l2 /\ p e = true.
Proof.
  induction l as [|a l IH]; intros l1 e l2 H; cbn [filter] in H; [destruct l1; discriminate|].
  destruct (p a) eqn:E.
  - destruct l1 as [|b l1]; cbn in H.
    + injection H as -> <-. exists [], l. auto.
    + injection H as -> H. destruct (IH _ _ _ H) as (k1 & k2 & -> & <- & <- & K). exists (b :: k1), k2. cbn [filter app]. rewrite E. auto.
  - destruct (IH _ _ _ H) as (k1 & k2 & -> & <- & <- & K). exists (a :: k1), k2. cbn [filter app]. rewrite E. auto.
Qed.
Section Ev.
Context {A : Type} (time : A -> Q) (set_time : A -> Q -> A) (ST : forall e t, time (set_time e t) = t).
Let lt := fun a b => Qltb (time a) (time b).
Lemma ev_sort : forall l, StronglySorted (fun a b => time a <= time b) (py_sort lt l).
Proof.
  intro l. assert (SS : StronglySorted (fun a b => lt b a = false) (py_sort lt l)).
  { apply py_sort_sorted; unfold lt; intros;
    repeat match goal with H : Qltb _ _ = true |- _ => apply Qltb_lt in H | H : Qltb _ _ = false |- _ => apply Qltb_ge in H end; apply Qltb_ge; lra. }
  induction SS; constructor; auto. eapply Forall_impl; [|eassumption]. intros b K. apply Qltb_ge in K. auto.
Qed.
Lemma insert_filter : forall p a s, StronglySorted (fun a b => time a <= time b) s ->
  filter p (insert_stable lt a s) = if p a then insert_stable lt a (filter p s) else filter p s.
Proof.
  intros p a s S. induction S as [|y s S IH F]; cbn [insert_stable filter]; [destruct (p a); reflexivity|].
  unfold lt at 1. qc (Qltb (time y) (time a)).
  - cbn [filter]. rewrite IH. destruct (p y); destruct (p a); auto. cbn [insert_stable]. unfold lt at 2. apply Qltb_lt in C. rewrite C. reflexivity.
  - cbn [filter]. destruct (p a) eqn:Ea; [|reflexivity].
    assert (K : forall z, In z ((if p y then y :: filter p s else filter p s)) -> time a <= time z).
    { intros z Hz. assert (Hin : z = y \/ In z s). { destruct (p y); [destruct Hz as [-> |Hz]; auto|]; apply filter_In in Hz as [Hz _]; auto. }
      destruct Hin as [-> |Hin]; [auto|]. rewrite Forall_forall in F. specialize (F z Hin). lra. }
    destruct (if p y then y :: filter p s else filter p s) as [|z r]; [reflexivity|]. cbn [insert_stable]. unfold lt at 1.
    assert (Z1 : Qltb (time z) (time a) = false) by (apply Qltb_ge, K; left; auto). rewrite Z1. reflexivity.
Qed.
Lemma sort_filter : forall p l, filter p (py_sort lt l) = py_sort lt (filter p l).
Proof.
  intros p l. induction l as [|a l IH]; [reflexivity|]. cbn [py_sort fold_right filter]. rewrite insert_filter by apply ev_sort.
  destruct (p a); [|exact IH]. cbn [fold_right]. fold (py_sort lt l). rewrite IH. reflexivity.
Qed.
Lemma last_insert : forall a s d, StronglySorted (fun a b => time a <= time b) s -> s <> [] ->
  (last (insert_stable lt a s) d = last s d /\ time a <= time (last s d)) \/ (last (insert_stable lt a s) d = a /\ forall z, In z s -> time z < time a).
Proof.
  intros a s d S. induction S as [|y s S IH F]; intro NE; [congruence|]. cbn [insert_stable]. unfold lt at 1 3. qc (Qltb (time y) (time a)).
  - destruct s as [|z s].
    + right. cbn. split; auto. intros z [<- |[]]; auto.
    + destruct (IH ltac:(discriminate)) as [[K1 K2]|[K1 K2]].
      * left. assert (E : insert_stable lt a (z :: s) <> []) by (cbn; destruct (lt z a); discriminate).
        destruct (insert_stable lt a (z :: s)) as [|w r]; [congruence|]. change (last (y :: w :: r) d) with (last (w :: r) d). change (last (y :: z :: s) d) with (last (z :: s) d). auto.
      * right. assert (E : insert_stable lt a (z :: s) <> []) by (cbn; destruct (lt z a); discriminate).
        destruct (insert_stable lt a (z :: s)) as [|w r]; [congruence|]. change (last (y :: w :: r) d) with (last (w :: r) d).
        split; auto. intros u [<- |Hu]; auto.
  - left. split; [reflexivity|]. rewrite Forall_forall in F. assert (K : In (last (y :: s) d) (y :: s)). { destruct (last_split _ (y :: s) d ltac:(discriminate)) as [r E]. rewrite E at 2. apply in_app_iff; right; left; auto. }
    destruct K as [<- |K]; [auto|]. specialize (F _ K). lra.
Qed.
Lemma last_sort : forall l d, l <> [] -> exists l1 l2, l = l1 ++ last (py_sort lt l) d :: l2 /\
  (forall e, In e l1 -> time e <= time (last (py_sort lt l) d)) /\ (forall e, In e l2 -> time e < time (last (py_sort lt l) d)).
Proof.
  induction l as [|a l IH]; intros d NE; [congruence|]. destruct l as [|b l].
  - exists [], []. cbn. repeat split; intros e [].
  - remember (b :: l) as r eqn:Er. assert (NEr : r <> []) by (subst; discriminate). cbn [py_sort fold_right]. fold (py_sort lt r).
    assert (NS : py_sort lt r <> []). { intro K. apply NEr. pose proof (py_sort_perm lt r) as P. rewrite K in P. apply Permutation_sym, Permutation_nil in P. auto. }
    destruct (last_insert a (py_sort lt r) d (ev_sort r) NS) as [[K1 K2]|[K1 K2]]; rewrite K1.
    + destruct (IH d NEr) as (l1 & l2 & E & H1 & H2). exists (a :: l1), l2. split; [cbn [app]; rewrite <- E; reflexivity|]. split; auto.
      intros e [<- |He]; auto.
    + exists [], r. split; [reflexivity|]. split; [intros e []|]. intros e He. apply K2. apply (Permutation_in _ (py_sort_perm lt r)). auto.
Qed.
Lemma filter_map2 : forall B C (f : B -> C) p l, filter p (map f l) = map f (filter (fun x => p (f x)) l).
Proof. induction l as [|a l IH]; [reflexivity|]. cbn. destruct (p (f a)); cbn; rewrite IH; reflexivity. Qed.
Lemma last_map2 : forall B C (f : B -> C) l d, last (map f l) (f d) = f (last l d).
Proof. induction l as [|a [|b l] IH]; intro d; [reflexivity|reflexivity|]. apply (IH d). Qed.
Lemma ss_app : forall B (R : B -> B -> Prop) a b, StronglySorted R a -> StronglySorted R b -> (forall x y, In x a -> In y b -> R x y) -> StronglySorted R (a ++ b).
Proof.
  induction 1 as [|x a Sa IH F]; intros Sb H; [exact Sb|]. cbn. constructor; [apply IH; auto; intros; apply H; auto; right; auto|].
  rewrite Forall_forall in *. intros y Hy. apply in_app_iff in Hy as [Hy|Hy]; auto. apply H; auto. left; auto.
Qed.
Lemma perm_filter : forall B (p : B -> bool) l l', Permutation l l' -> Permutation (filter p l) (filter p l').
Proof.
  induction 1; cbn; auto; [destruct (p x); auto|destruct (p x), (p y); auto; constructor|eapply Permutation_trans; eauto].
Qed.
Lemma retimed_list : forall m l, asc m -> retimed time set_time (interp m) (first_y m) (last_y m) l (adjust_list time set_time m l).
Proof.
  intros m l S. unfold adjust_list, keep_in_range. fold lt. set (mv := fun e => set_time e (interp m (time e))).
  set (srt := py_sort lt l). rewrite !filter_map2.
  assert (T : forall e, time (mv e) = interp m (time e)) by (intro e; apply ST).
  set (at0 := filter (fun x => Qeq_bool (time (mv x)) (first_y m)) srt).
  exists (match map mv at0 with [] => [] | a :: r => [last r a] end), (map mv (filter (fun x => Qltb (first_y m) (time (mv x)) && Qltb (time (mv x)) (last_y m)) srt)).
  assert (H0 : match map mv at0 with [] => [] | a :: r => [last r a] end = match at0 with [] => [] | a :: r => [mv (last r a)] end).
  { destruct at0 as [|a r]; [reflexivity|]. cbn [map]. rewrite last_map2. reflexivity. }
  assert (IN0 : forall x, In x (match map mv at0 with [] => [] | a :: r => [last r a] end) -> time x == first_y m).
  { rewrite H0. intros x Hx. assert (K : forall (a : A) r, In (last r a) (a :: r)). { clear. intros a r. destruct (last_split _ (a :: r) a ltac:(discriminate)) as [k E]. assert (El : last (a :: r) a = last r a) by (destruct r; reflexivity). rewrite El in E. rewrite E. apply in_app_iff; right; left; auto. }
    destruct at0 as [|a r] eqn:E0; [contradiction|]. destruct Hx as [<- |[]]. specialize (K a r). rewrite <- E0 in K. apply filter_In in K as [_ K]. apply Qeq_bool_iff in K. exact K. }
  split; [reflexivity|]. split; [|split].
  - apply ss_app.
    + destruct (map mv at0); repeat constructor.
    + apply sorted_to_map.
      assert (SS : StronglySorted (fun a b => time (mv a) <= time (mv b)) srt).
      { pose proof (ev_sort l) as SS. fold srt in SS. clear -SS T S. induction SS as [|a s SS IH F]; constructor; auto. eapply Forall_impl; [|exact F]. intros b K. cbn beta. rewrite !T. apply interp_mono; auto. }
      clear -SS. induction SS as [|a s S IH F]; cbn [filter]; [constructor|]. destruct (_ && _); auto. constructor; auto. rewrite Forall_forall in *. intros b Hb. apply filter_In in Hb as [Hb _]. auto.
    + intros x y Hx Hy. apply IN0 in Hx. apply in_map_iff in Hy as (z & <- & Hz). apply filter_In in Hz as [_ Hz]. apply andb_prop in Hz as [Hz _]. apply Qltb_lt in Hz. lra.
  - apply Permutation_map.
    assert (E : forall s, filter (fun x => Qltb (first_y m) (time (mv x)) && Qltb (time (mv x)) (last_y m)) s = filter (fun e => Qltb (first_y m) (interp m (time e)) && Qltb (interp m (time e)) (last_y m)) s).
    { intro s. apply filter_ext. intro a. rewrite T. reflexivity. }
    rewrite E. apply perm_filter. apply Permutation_sym, py_sort_perm.
  - rewrite H0. unfold at0, srt. rewrite sort_filter. set (p := fun x => Qeq_bool (time (mv x)) (first_y m)).
    assert (Pp : forall e, p e = true <-> interp m (time e) == first_y m) by (intro e; unfold p; rewrite T; apply Qeq_bool_iff).
    destruct (filter p l) as [|a r] eqn:Ef.
    + left. cbn. split; [reflexivity|]. intros e He K. apply Pp in K. assert (In e (filter p l)) by (apply filter_In; auto). rewrite Ef in H. contradiction.
    + right. destruct (py_sort lt (a :: r)) as [|b s] eqn:Es.
      { pose proof (py_sort_perm lt (a :: r)) as P. rewrite Es in P. apply Permutation_sym, Permutation_nil in P. discriminate. }
      destruct (last_sort (a :: r) b ltac:(discriminate)) as (l1 & l2 & E & H1 & H2). rewrite Es in E, H1, H2.
      assert (El : last (b :: s) b = last s b). { destruct s; reflexivity. } rewrite El in *.
      rewrite E in Ef. destruct (filter_split _ _ _ _ _ _ Ef) as (k1 & k2 & El' & F1 & F2 & Pe).
      exists k1, (last s b), k2. split; [exact El'|]. split; [apply Pp; exact Pe|]. split; [reflexivity|]. split.
      * intros e' He' K. apply H1. rewrite <- F1. apply filter_In. split; auto. apply Pp; auto.
      * intros e' He' K. apply H2. rewrite <- F2. apply filter_In. split; auto. apply Pp; auto.
Qed.
End Ev.

(* time signatures *)
Lemma move_last_filter : forall d l, StronglySorted (fun a b => ts_time a <= ts_time b) l -> existsb (fun t => Qle_bool (ts_time t) d) l = true ->
  exists l1 s l2, l = l1 ++ s :: l2 /\ ts_time s <= d /\ (forall t, In t l1 -> ts_time t <= ts_time s) /\ (forall t, In t l2 -> d < ts_time t) /\
  move_last (fun t => Qle_bool (ts_time t) d) d l = l1 ++ set_ts s d :: l2.
Proof.
  intros d l S. induction S as [|a l S IH F]; intro H; [discriminate|]. cbn [existsb move_last] in *.
  destruct (existsb (fun t => Qle_bool (ts_time t) d) l) eqn:E.
  - destruct (IH eq_refl) as (l1 & s & l2 & -> & K1 & K2 & K3 & K4). exists (a :: l1), s, l2. rewrite K4. repeat split; auto.
    intros t [<- |Ht]; auto. rewrite Forall_forall in F. apply F. apply in_app_iff; right; left; auto.
  - rewrite orb_false_r in H. rewrite H. exists [], a, l. apply Qle_bool_iff in H. repeat split; auto; [intros t []|].
    intros t Ht. destruct (Qlt_le_dec d (ts_time t)) as [K|K]; auto. exfalso. assert (X : existsb (fun t => Qle_bool (ts_time t) d) l = true).
    { apply existsb_exists. exists t. split; auto. apply Qle_bool_iff; auto. } congruence.
Qed.
Lemma sigs_spec : forall m downs l, asc m -> exists l1,
  retimed ts_time (fun s t => mkTS (ts_num s) (ts_den s) t) (interp m) (first_y m) (last_y m) l l1 /\
  ((forall x, In x downs -> x < first_x m) -> adjust_sigs m downs l = l1) /\
  (forall a x b, downs = a ++ x :: b -> (forall y, In y a -> y < first_x m) -> first_x m <= x -> let d := interp m x in
    exists at_d s, adjust_sigs m downs l = at_d ++ s :: filter (fun t => Qltb d (ts_time t)) l1 /\
    (forall t, In t at_d -> ts_time t == d /\ In t l1) /\ ts_time s = d /\
    (((forall t, In t l1 -> d < ts_time t) /\ ts_num s = 4%Z /\ ts_den s = 4%Z) \/
     exists k1 s0 k2, l1 = k1 ++ s0 :: k2 /\ ts_time s0 <= d /\ (forall t, In t k2 -> d < ts_time t) /\ ts_num s = ts_num s0 /\ ts_den s = ts_den s0)).
Proof.
  intros m downs l S. exists (adjust_list ts_time set_ts m l). pose proof (retimed_list ts_time set_ts ltac:(reflexivity) m l S) as R. split; [exact R|].
  unfold adjust_sigs. set (l1 := adjust_list ts_time set_ts m l) in *. cbv zeta. split.
  - intro H. assert (E : filter (fun d => Qle_bool (first_x m) d) downs = []).
    { clear -H. induction downs as [|a r IH]; [reflexivity|]. cbn. assert (E : Qle_bool (first_x m) a = false) by (apply Qle_bool_false, H; left; auto). rewrite E. apply IH. intros; apply H; right; auto. }
    rewrite E. reflexivity.
  - intros a x b E Ha Hx. assert (Ef : exists r, filter (fun d => Qle_bool (first_x m) d) downs = x :: r).
    { subst downs. clear -Ha Hx. induction a as [|y a IH]; cbn.
      - apply Qle_bool_iff in Hx. rewrite Hx. eauto.
      - assert (E : Qle_bool (first_x m) y = false) by (apply Qle_bool_false, Ha; left; auto). rewrite E. apply IH. intros; apply Ha; right; auto. }
    destruct Ef as [r ->]. cbn [map]. set (d := interp m x).
    assert (SS : StronglySorted (fun a b => ts_time a <= ts_time b) l1) by (destruct R as (h & t & _ & SS & _); exact SS).
    assert (FA : forall k, (forall t, In t k -> d < ts_time t) -> filter (fun t => Qltb d (ts_time t)) k = k /\ filter (fun t => Qle_bool d (ts_time t)) k = k).
    { induction k as [|t k IH]; intro K; [auto|]. cbn. assert (K1 : d < ts_time t) by (apply K; left; auto). assert (K2 : d <= ts_time t) by lra.
      apply Qltb_lt in K1. apply Qle_bool_iff in K2. rewrite K1, K2. destruct (IH ltac:(intros; apply K; right; auto)) as [-> ->]. auto. }
    destruct (existsb (fun t => Qle_bool (ts_time t) d) l1) eqn:Ex.
    + destruct (move_last_filter d l1 SS Ex) as (k1 & s & k2 & E1 & K1 & K2 & K3 & K4). rewrite K4.
      exists (filter (fun t => Qle_bool d (ts_time t)) k1), (set_ts s d). rewrite filter_app. cbn [filter set_ts ts_time].
      assert (Z1 : Qle_bool d d = true) by (apply Qle_bool_iff; lra). rewrite Z1. destruct (FA k2 K3) as [F1 F2]. rewrite F2. split; [|split; [|split; [reflexivity|]]].
      * f_equal. f_equal. rewrite E1, filter_app. cbn [filter]. assert (Z2 : Qltb d (ts_time s) = false) by (apply Qltb_ge; auto). rewrite Z2, F1.
        assert (Z3 : filter (fun t => Qltb d (ts_time t)) k1 = []).
        { clear -K1 K2. induction k1 as [|t k IH]; [reflexivity|]. cbn. assert (Z3 : Qltb d (ts_time t) = false) by (apply Qltb_ge; specialize (K2 t (or_introl eq_refl)); lra). rewrite Z3. apply IH. intros; apply K2; right; auto. }
        rewrite Z3. reflexivity.
      * intros t Ht. apply filter_In in Ht as [Ht1 Ht2]. apply Qle_bool_iff in Ht2. specialize (K2 t Ht1). split; [lra|]. rewrite E1. apply in_app_iff; auto.
      * right. exists k1, s, k2. repeat split; auto.
    + assert (K : forall t, In t l1 -> d < ts_time t).
      { intros t Ht. destruct (Qlt_le_dec d (ts_time t)) as [K|K]; auto. exfalso. assert (X : existsb (fun t => Qle_bool (ts_time t) d) l1 = true).
        { apply existsb_exists. exists t. split; auto. apply Qle_bool_iff; auto. } congruence. }
      exists [], (mkTS 4 4 d). destruct (FA l1 K) as [F1 _]. rewrite F1. split; [reflexivity|]. split; [intros t []|]. split; [reflexivity|]. left. auto.
Qed.
