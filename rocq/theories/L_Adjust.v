(** The time map and its interpolation. *)
From Coq Require Import Sorted Permutation Lqa Lia.
From Verif Require Import PyBase L_Base M_Note L_Note L_Note2 M_Beats M_Adjust S_Adjust.
Open Scope Q_scope.

Fixpoint First (c : Q * option Q) (l : list (Q * option Q)) : Prop :=
  match l with [] => False | a :: r => c = a \/ (~ fst c == fst a /\ First c r) end.
Lemma First_insert : forall a s c, First c (insert_stable (fun a b => Qltb (fst a) (fst b)) a s) <-> First c (a :: s).
Proof.
  intros a s c. induction s as [|y s IH]; [reflexivity|]. cbn [insert_stable].
  destruct (Qltb (fst y) (fst a)) eqn:E; [|reflexivity]. apply Qltb_lt in E. cbn [First] in *. rewrite IH.
  assert (H : ~ fst y == fst a) by lra. assert (H' : ~ fst a == fst y) by lra.
  split.
  - intros [-> |[K [-> |[K1 K2]]]]; auto.
  - intros [-> |[K [-> |[K1 K2]]]]; auto 6.
Qed.
Lemma First_cons : forall a s s' c, (First c s <-> First c s') -> (First c (a :: s) <-> First c (a :: s')).
Proof. intros a s s' c H. cbn [First]. rewrite H. reflexivity. Qed.
Lemma First_sort : forall l c, First c (py_sort (fun a b => Qltb (fst a) (fst b)) l) <-> First c l.
Proof.
  induction l as [|a l IH]; intro c; [reflexivity|]. cbn [py_sort fold_right]. rewrite First_insert.
  apply First_cons. apply IH.
Qed.
Lemma pairs_sorted : forall A (l : list (Q * A)), StronglySorted (fun a b => fst a <= fst b) (py_sort (fun a b => Qltb (fst a) (fst b)) l).
Proof.
  intros A l. assert (S : StronglySorted (fun a b => Qltb (fst b) (fst a) = false) (py_sort (fun a b : Q * A => Qltb (fst a) (fst b)) l)).
  { apply (py_sort_sorted (fun a b : Q * A => Qltb (fst a) (fst b))); intros;
    repeat match goal with H : Qltb _ _ = true |- _ => apply Qltb_lt in H | H : Qltb _ _ = false |- _ => apply Qltb_ge in H end; apply Qltb_ge; lra. }
  induction S; constructor; auto. eapply Forall_impl; [|eassumption]. intros b K. apply Qltb_ge in K. auto.
Qed.
Lemma drop_dups_head : forall a r, exists t, drop_dups (a :: r) = a :: t.
Proof. intros a r. cbn [drop_dups]. destruct (drop_dups r) as [|b t]; [eauto|]. destruct (Qeq_bool _ _); eauto. Qed.
Lemma drop_dups_in : forall l c, In c (drop_dups l) -> In c l.
Proof.
  induction l as [|a l IH]; intros c H; [exact H|]. cbn [drop_dups] in H. destruct (drop_dups l) as [|b t].
  - destruct H as [H|[]]; left; auto.
  - destruct (Qeq_bool _ _); (destruct H as [H|H]; [left; exact H|right; apply IH]); [right; exact H|exact H].
Qed.
Lemma drop_dups_spec : forall l, StronglySorted (fun a b => fst a <= fst b) l ->
  StronglySorted (fun a b => fst a < fst b) (drop_dups l) /\ forall c, In c (drop_dups l) <-> First c l.
Proof.
  induction 1 as [|a l S IH F]; [split; [constructor|reflexivity]|]. destruct IH as [I1 I2]. rewrite Forall_forall in F.
  cbn [drop_dups]. pose proof (drop_dups_in l) as IN. destruct (drop_dups l) as [|b t] eqn:ED.
  - split; [repeat constructor|]. intro c. cbn [In First]. specialize (I2 c). cbn [In] in I2. split; [intros [-> |[]]; auto|].
    intros [-> |[_ K]]; auto. apply I2 in K as [].
  - inversion I1 as [|? ? J1 J2]; subst. rewrite Forall_forall in J2. destruct (Qeq_bool (fst a) (fst b)) eqn:E.
    + apply Qeq_bool_iff in E. split.
      * constructor; auto. rewrite Forall_forall. intros c Hc. specialize (J2 c Hc). lra.
      * intro c. cbn [In First]. split.
        -- intros [-> |K]; auto. right. split; [specialize (J2 c K); lra|]. apply I2. right; auto.
        -- intros [-> |[K1 K2]]; auto. apply I2 in K2 as [<- |K2]; auto. exfalso. apply K1. lra.
    + assert (N : ~ fst a == fst b) by (intro K; apply Qeq_bool_iff in K; congruence).
      assert (L : fst a < fst b). { specialize (F b (IN b (or_introl eq_refl))). cbn beta in F. lra. }
      split.
      * constructor; auto. constructor; auto. rewrite Forall_forall. intros c Hc. specialize (J2 c Hc). lra.
      * intro c. change (a = c \/ In c (b :: t) <-> First c (a :: l)). rewrite I2. cbn [First]. split.
        -- intros [-> |K]; auto. right. split; auto. apply I2 in K as [<- |K]; [lra|]. specialize (J2 c K). lra.
        -- intros [-> |[_ K]]; auto.
Qed.
Lemma First_with : forall orig new x v, First (x, v) (with_new orig new) <-> exists i, first_at orig i x /\ v = nth_error new i.
Proof.
  induction orig as [|x0 r IH]; intros new x v.
  - split; [intros []|]. intros (i & [H _] & _). destruct i; discriminate.
  - assert (E : with_new (x0 :: r) new = (x0, nth_error new 0) :: with_new r (tl new)) by (destruct new; reflexivity).
    rewrite E. cbn [First fst]. rewrite IH. split.
    + intros [K|[K1 (i & [K2 K3] & K4)]].
      * injection K as -> ->. exists 0%nat. split; [split; [reflexivity|intros; lia]|reflexivity].
      * exists (S i). split; [split; [exact K2|]|rewrite K4; destruct new; destruct i; reflexivity].
        intros [|j] x' Hj Hx'; [injection Hx' as <-; intro; apply K1; lra|]. apply (K3 j); auto; lia.
    + intros ([|i] & [K1 K2] & K3).
      * injection K1 as ->. left. rewrite K3. reflexivity.
      * right. split.
        -- intro K. apply (K2 0%nat x0); [lia|reflexivity|lra].
        -- exists i. split; [split; [exact K1|]|rewrite K3; destruct new; destruct i; reflexivity].
           intros j x' Hj Hx'. apply (K2 (S j)); auto; lia.
Qed.
Lemma unique_spec : forall orig new, StronglySorted (fun a b => fst a < fst b) (unique orig new) /\
  forall x v, In (x, v) (unique orig new) <-> exists i, first_at orig i x /\ v = nth_error new i.
Proof.
  intros orig new. destruct (drop_dups_spec _ (pairs_sorted _ (with_new orig new))) as [H1 H2].
  split; [exact H1|]. intros x v. unfold unique. rewrite H2, First_sort. apply First_with.
Qed.
Lemma all_some_ok : forall l m, all_some l = Ok m -> l = map (fun c => (fst c, Some (snd c))) m.
Proof.
  induction l as [|[x [y|]] l IH]; intros m H; cbn [all_some] in H; [apply Ok_inj in H; subst; reflexivity| |discriminate].
  destruct (all_some l) as [r|e]; cbn [bind] in H; [|discriminate]. apply Ok_inj in H. subst m. cbn [map fst snd].
  rewrite (IH r eq_refl). reflexivity.
Qed.
Lemma all_some_err : forall l e, all_some l = Err e -> e = IndexError /\ exists x : Q, In (x, None) l.
Proof.
  induction l as [|[x [y|]] l IH]; intros e H; cbn [all_some] in H; [discriminate| |inversion H; split; auto; exists x; left; auto].
  destruct (all_some l) as [r|e']; cbn [bind] in H; [discriminate|]. inversion H; subst. destruct (IH e eq_refl) as [-> [x' K]]. split; auto. exists x'. right; auto.
Qed.
Lemma first_exists : forall orig x, In x orig -> exists i x', first_at orig i x' /\ x' == x.
Proof.
  induction orig as [|a r IH]; intros x H; [contradiction|].
  destruct (Qeq_dec a x) as [E|E].
  - exists 0%nat, a. split; auto. split; [reflexivity|intros; lia].
  - destruct H as [-> |H]; [exfalso; apply E; reflexivity|]. destruct (IH x H) as (i & x' & [K1 K2] & K3).
    exists (S i), x'. split; auto. split; [exact K1|]. intros [|j] x2 Hj Hx; [injection Hx as <-; intro; apply E; lra|]. apply (K2 j); auto; lia.
Qed.
Lemma nondecreasing_spec : forall l, nondecreasing l = true -> StronglySorted Qle l.
Proof.
  intros l H. apply Sorted_StronglySorted; [intros a b c; lra|]. induction l as [|a [|b l] IH]; [constructor|repeat constructor|].
  apply andb_prop in H as [H1 H2]. apply Qle_bool_iff in H1. constructor; [apply IH; exact H2|]. constructor. lra.
Qed.
(* running maxima over the breakpoints *)
Lemma combine_accum : forall (l P0 : list (Q * Q)) mx, (forall c, In c P0 -> snd c <= mx) -> (exists c, In c P0 /\ snd c = mx) ->
  forall x y, In (x, y) (combine (map fst l) (running_max mx (map snd l))) ->
  exists l1 l2 y0, l = l1 ++ (x, y0) :: l2 /\ (forall c, In c (P0 ++ l1 ++ [(x, y0)]) -> snd c <= y) /\
    exists c, In c (P0 ++ l1 ++ [(x, y0)]) /\ snd c = y.
Proof.
  induction l as [|[x0 y0] l IH]; intros P0 mx H1 H2 x y H; cbn in H; [contradiction|].
  assert (B : mx <= Qmaxb mx y0 /\ y0 <= Qmaxb mx y0 /\ (Qmaxb mx y0 = mx \/ Qmaxb mx y0 = y0)).
  { destruct (Qmaxb_spec mx y0) as [[K ->]|[K ->]]; repeat split; auto; lra. }
  destruct B as (B1 & B2 & B3).
  assert (U : forall c, In c (P0 ++ [(x0, y0)]) -> snd c <= Qmaxb mx y0).
  { intros c Hc. apply in_app_iff in Hc as [Hc|[<- |[]]]; [specialize (H1 c Hc); lra|exact B2]. }
  assert (V : exists c, In c (P0 ++ [(x0, y0)]) /\ snd c = Qmaxb mx y0).
  { destruct H2 as (c & K1 & K2). destruct B3 as [B3|B3]; rewrite B3.
    - exists c. split; auto. apply in_app_iff; auto.
    - exists (x0, y0). split; [apply in_app_iff; right; left; reflexivity|reflexivity]. }
  destruct H as [H|H].
  - injection H as <- <-. exists [], l, y0. split; [reflexivity|]. split; assumption.
  - destruct (IH (P0 ++ [(x0, y0)]) _ U V x y H) as (l1 & l2 & y1 & E & K1 & K2).
    exists ((x0, y0) :: l1), l2, y1. split; [rewrite E; reflexivity|]. rewrite <- app_assoc in K1, K2. split; assumption.
Qed.
Lemma running_length : forall l mx, List.length (running_max mx l) = List.length l.
Proof. induction l as [|x l IH]; intro mx; cbn; auto. Qed.
Lemma map_fst_combine : forall A B (a : list A) (b : list B), List.length a = List.length b -> map fst (combine a b) = a.
Proof. induction a as [|x a IH]; intros [|y b] H; cbn in *; try discriminate; f_equal; auto. Qed.
Lemma sorted_of_map : forall A B (f : A -> B) (R : B -> B -> Prop) l, StronglySorted R (map f l) -> StronglySorted (fun a b => R (f a) (f b)) l.
Proof.
  induction l as [|a l IH]; intro H; [constructor|]. inversion H as [|? ? H1 H2]; subst. constructor; auto.
  rewrite Forall_forall in *. intros b Hb. apply H2. apply in_map; auto.
Qed.
Lemma sorted_to_map : forall A B (f : A -> B) (R : B -> B -> Prop) l, StronglySorted (fun a b => R (f a) (f b)) l -> StronglySorted R (map f l).
Proof.
  induction 1 as [|a l S IH F]; cbn; constructor; auto. rewrite Forall_forall in *. intros b Hb. apply in_map_iff in Hb as (c & <- & Hc). auto.
Qed.
Lemma split_le : forall (l : list (Q * Q)) l1 l2 c d, StronglySorted (fun a b => fst a < fst b) l -> l = l1 ++ c :: l2 -> In d l -> fst d <= fst c -> In d (l1 ++ [c]).
Proof.
  intros l l1 l2 c d S -> H L. apply in_app_iff in H as [H|[<- |H]].
  - apply in_app_iff; auto.
  - apply in_app_iff; right; left; auto.
  - exfalso. clear -S H L. induction l1 as [|a l1 IH]; cbn in S; inversion S as [|? ? S1 S2]; subst; auto.
    rewrite Forall_forall in S2. specialize (S2 d H). lra.
Qed.
Lemma split_lt : forall (l : list (Q * Q)) l1 l2 c d, StronglySorted (fun a b => fst a < fst b) l -> l = l1 ++ c :: l2 -> In d (l1 ++ [c]) -> In d l /\ fst d <= fst c.
Proof.
  intros l l1 l2 c d S -> H. apply in_app_iff in H as [H|[<- |[]]].
  - split; [apply in_app_iff; auto|]. induction l1 as [|a l1 IH]; [contradiction|]. cbn in S; inversion S as [|? ? S1 S2]; subst.
    destruct H as [-> |H]; [|auto]. rewrite Forall_forall in S2. specialize (S2 c). cbn beta in S2. assert (In c (l1 ++ c :: l2)) by (apply in_app_iff; right; left; auto). specialize (S2 H). lra.
  - split; [apply in_app_iff; right; left; auto|lra].
Qed.
Lemma time_map_spec : forall orig new m, time_map orig new = Ok m -> breakpoints orig new m /\ (orig = [] <-> m = []) /\
  StronglySorted (fun a b => fst a < fst b /\ snd a <= snd b) m.
Proof.
  intros orig new m H. unfold time_map in H. destruct (all_some (unique orig new)) as [u|e] eqn:EU; cbn [bind] in H; [|discriminate].
  destruct (unique_spec orig new) as [S M]. pose proof (all_some_ok _ _ EU) as E. rewrite E in S, M.
  assert (Su : StronglySorted (fun a b => fst a < fst b) u).
  { apply sorted_of_map in S. exact S. }
  assert (Mu : forall x y, In (x, y) u <-> exists i, first_at orig i x /\ nth_error new i = Some y).
  { intros x y. specialize (M x (Some y)). rewrite in_map_iff in M. split.
    - intro K. assert (Q1 : exists c, (fst c, Some (snd c)) = (x, Some y) /\ In c u) by (exists (x, y); auto).
      apply M in Q1 as (i & Q1 & Q2). exists i; auto.
    - intros (i & K1 & K2). assert (Q1 : exists i, first_at orig i x /\ Some y = nth_error new i) by (exists i; auto).
      apply M in Q1 as ([x' y'] & Q1 & Q2). cbn in Q1. injection Q1 as <- <-. exact Q2. }
  assert (All : forall i x, first_at orig i x -> exists y, nth_error new i = Some y /\ In (x, y) u).
  { intros i x K. destruct (M x (nth_error new i)) as [_ K2]. assert (Q1 : exists i0, first_at orig i0 x /\ nth_error new i = nth_error new i0) by eauto.
    apply K2 in Q1. apply in_map_iff in Q1 as ([x' y'] & Q1 & Q2). cbn in Q1. injection Q1 as -> Q1. exists y'. split; auto. }
  assert (FM : map fst m = map fst u /\ forall x y, In (x, y) m -> exists l1 l2 y0, u = l1 ++ (x, y0) :: l2 /\
     (forall c, In c (l1 ++ [(x, y0)]) -> snd c <= y) /\ exists c, In c (l1 ++ [(x, y0)]) /\ snd c = y).
  { destruct (nondecreasing (map snd u)) eqn:EN; apply Ok_inj in H; subst m.
    - split; [reflexivity|]. intros x y Hin. apply in_split in Hin as (l1 & l2 & Eu). exists l1, l2, y. split; auto. split.
      + intros c Hc. apply nondecreasing_spec in EN. rewrite Eu, map_app in EN. cbn [map snd] in EN.
        apply in_app_iff in Hc as [Hc|[<- |[]]]; [|cbn [snd]; lra]. clear -EN Hc. induction l1 as [|a l1 IH]; [contradiction|]. cbn in EN.
        inversion EN as [|? ? E1 E2]; subst. destruct Hc as [-> |Hc]; auto. rewrite Forall_forall in E2. apply E2. apply in_app_iff; right; left; auto.
      + exists (x, y). split; auto. apply in_app_iff; right; left; auto.
    - destruct u as [|[x0 y0] u]; [split; [reflexivity|intros x y []]|]. cbn [map fst snd accumulate] in *. split.
      + cbn [combine map fst]. f_equal. apply map_fst_combine. rewrite running_length, !map_length. reflexivity.
      + intros x y Hin. cbn [combine In] in Hin. destruct Hin as [Hin|Hin].
        * injection Hin as <- <-. exists [], u, y0. split; auto. split; [intros c [<- |[]]; cbn; lra|]. exists (x0, y0). split; auto. left; auto.
        * destruct (combine_accum u [(x0, y0)] y0 ltac:(intros c [<- |[]]; cbn; lra) ltac:(exists (x0, y0); split; auto; left; auto) x y Hin) as (l1 & l2 & y1 & K1 & K2 & K3).
          exists ((x0, y0) :: l1), l2, y1. split; [rewrite K1; reflexivity|]. split; assumption. }
  destruct FM as [FM1 FM2].
  assert (Sm : StronglySorted (fun a b => fst a < fst b) m).
  { apply sorted_of_map. rewrite FM1. apply (sorted_to_map _ _ fst Qlt). exact Su. }
  split; [split; [exact Sm|split]|split].
  - intros x Hx. destruct (first_exists orig x Hx) as (i & x' & K1 & K2). destruct (All i x' K1) as (y & _ & K3).
    apply (in_map fst) in K3. rewrite <- FM1 in K3. apply in_map_iff in K3 as ([x2 y2] & K3 & K4). cbn in K3. subst x2. exists x', y2. auto.
  - intros x y Hin. destruct (FM2 x y Hin) as (l1 & l2 & y0 & K1 & K2 & K3). repeat split.
    + assert (K : In (x, y0) u) by (rewrite K1; apply in_app_iff; right; left; auto). apply Mu in K as (i & K & _). exists i; auto.
    + destruct K3 as ([x' y'] & K3 & K4). cbn in K4. subst y'. destruct (split_lt _ _ _ _ _ Su K1 K3) as [Q1 Q2].
      apply Mu in Q1 as (i & Q3 & Q4). exists i, x'. auto.
    + intros i x' Hf Hle. destruct (All i x' Hf) as (y' & Q1 & Q2). exists y'. split; auto.
      apply (K2 (x', y')). apply (split_le _ _ _ _ _ Su K1 Q2). exact Hle.
  - split.
    + intros ->. destruct m as [|[x y] m]; auto. destruct (FM2 x y (or_introl eq_refl)) as (l1 & l2 & y0 & K1 & _).
      assert (K : In (x, y0) u) by (rewrite K1; apply in_app_iff; right; left; auto). apply Mu in K as (i & [K _] & _). destruct i; discriminate.
    + intros ->. destruct orig as [|x o]; auto. destruct (first_exists (x :: o) x (or_introl eq_refl)) as (i & x' & K1 & _).
      destruct (All i x' K1) as (y & _ & K3). destruct u; [contradiction|discriminate].
  - clear H. assert (MON : forall c d, In c m -> In d m -> fst c < fst d -> snd c <= snd d).
    { intros [xc yc] [xd yd] Hc Hd L. cbn [fst snd] in *. destruct (FM2 xc yc Hc) as (l1 & l2 & y0 & K1 & K2 & ([x' y'] & K3 & K4)). cbn in K4. subst y'.
      destruct (FM2 xd yd Hd) as (r1 & r2 & y1 & J1 & J2 & _). destruct (split_lt _ _ _ _ _ Su K1 K3) as [Q1 Q2]. cbn in Q2.
      apply (J2 (x', yc)). apply (split_le _ _ _ _ _ Su J1 Q1). cbn. lra. }
    clear -Sm MON. induction Sm as [|a l S IH F]; constructor.
    + apply IH. intros c d Hc Hd. apply MON; right; auto.
    + rewrite Forall_forall in *. intros b Hb. split; [auto|]. apply MON; [left; auto|right; auto|auto].
Qed.
Lemma time_map_err : forall orig new, (forall e, time_map orig new = Err e -> e = IndexError) /\
  (time_map orig new = Err IndexError <-> exists i x, first_at orig i x /\ (List.length new <= i)%nat).
Proof.
  intros orig new. unfold time_map. destruct (unique_spec orig new) as [_ M].
  assert (NE : forall (u : list (Q * Q)) (e : exn), (if nondecreasing (map snd u) then Ok u else Ok (combine (map fst u) (accumulate (map snd u)))) <> Err e) by (intros u e; destruct (nondecreasing _); discriminate).
  destruct (all_some (unique orig new)) as [u|e] eqn:EU; cbn [bind].
  - split; [intros e H; exfalso; apply (NE u e); auto|]. split; [intro H; exfalso; apply (NE _ _ H)|].
    intros (i & x & H1 & H2). exfalso. apply all_some_ok in EU. assert (K : In (x, None) (unique orig new)). { apply M. exists i. split; auto. symmetry. apply nth_error_None. auto. }
    rewrite EU in K. apply in_map_iff in K as (c & K & _). discriminate.
  - destruct (all_some_err _ _ EU) as [-> [x K]]. split; [intros e H; inversion H; auto|]. split; [|auto]. intros _.
    apply M in K as (i & K1 & K2). exists i, x. split; auto. apply nth_error_None. auto.
Qed.
