From Coq Require Import Sorted Permutation Lqa Lia Qround Qpower.
From Verif Require Import PyBase L_Base M_Note L_Note L_Note2 M_NoteExtra M_Events M_Beats S_Beats L_Beats L_Beats2 L_Beats3 L_Beats4 L_Beats5 M_Tempi S_Tempi L_Tempi S_BeatStart L_Tempi2.
From Verif Require Import L_Transforms.
Open Scope Q_scope.

Lemma trunc_f : forall x y, 0 <= x -> x == y -> Qtrunc x = Qfloor y.
Proof. intros x y H E. unfold Qtrunc. rewrite (proj2 (Qle_bool_iff 0 x)) by auto. apply Qfloor_comp. auto. Qed.

Lemma window_spec : forall tol b i, 0 < tol -> 0 <= b ->
  ((fst (beat_window tol b) <=? i) && (i <? snd (beat_window tol b)))%Z = in_window tol b i.
Proof.
  intros tol b i T B. unfold beat_window, in_window.
  qcase (Qltb (b - tol) 0).
  - rewrite (proj2 (Qltb_lt b tol)) by lra. cbn [fst snd].
    rewrite (trunc_f ((b + tol) * 1000) (1000 * (b + tol))) by (try ring; lra). reflexivity.
  - rewrite (proj2 (Qltb_ge b tol)) by lra. cbn [fst snd].
    rewrite (trunc_f ((b - tol) * 1000) (1000 * (b - tol))) by (try ring; lra).
    rewrite (trunc_f (1000 * tol * 2) (2000 * tol)) by (try ring; lra). reflexivity.
Qed.
Lemma window_fits : forall tol b e, 0 < tol -> tol <= 1 -> 0 <= b -> b <= e -> (snd (beat_window tol b) <= Qtrunc (1000 * (e + 1)))%Z.
Proof.
  intros tol b e T T1 B E. rewrite (trunc_f (1000 * (e + 1)) (1000 * (e + 1))) by (try reflexivity; lra).
  unfold beat_window. qcase (Qltb (b - tol) 0); cbn [snd].
  - rewrite (trunc_f ((b + tol) * 1000) (1000 * (b + tol))) by (try ring; lra). apply Qfloor_resp_le. lra.
  - rewrite (trunc_f ((b - tol) * 1000) (1000 * (b - tol))) by (try ring; lra).
    rewrite (trunc_f (1000 * tol * 2) (2000 * tol)) by (try ring; lra).
    destruct (Qfloor_bounds (1000 * (b - tol))) as [A _]. destruct (Qfloor_bounds (2000 * tol)) as [C _].
    destruct (Qfloor_bounds (1000 * (e + 1))) as [_ D].
    assert (K : inject_Z (Qfloor (1000 * (b - tol)) + Qfloor (2000 * tol)) < inject_Z (Qfloor (1000 * (e + 1)) + 1)).
    { rewrite !inject_Z_plus. change (inject_Z 1) with 1. lra. }
    rewrite <- Zlt_Qlt in K. lia.
Qed.
Lemma total_if : forall (h : bnote -> bool) l, total (map (fun a => if h a then bn_vel a else 0) l) == total (map bn_vel (filter h l)).
Proof.
  intros h. unfold total. induction l as [|a l IH]; cbn [map filter fold_right]; [reflexivity|].
  destruct (h a); cbn [map fold_right]; rewrite IH; ring.
Qed.
Lemma existsb_map : forall A B (f : A -> B) p l, existsb p (map f l) = existsb (fun x => p (f x)) l.
Proof. induction l as [|x l IH]; cbn [map existsb]; auto. rewrite IH. reflexivity. Qed.
Lemma existsb_ext2 : forall A (p q : A -> bool) l, (forall x, In x l -> p x = q x) -> existsb p l = existsb q l.
Proof. induction l as [|x l IH]; intro H; cbn [existsb]; auto. rewrite IH by (intros; apply H; right; auto). rewrite H by (left; auto). reflexivity. Qed.
Lemma filter_ext2 : forall A (p q : A -> bool) l, (forall x, In x l -> p x = q x) -> filter p l = filter q l.
Proof. induction l as [|x l IH]; intro H; cbn [filter]; auto. rewrite IH by (intros; apply H; right; auto). rewrite H by (left; auto). reflexivity. Qed.
Lemma perm_filter2 : forall A (p : A -> bool) l l', Permutation l l' -> Permutation (filter p l) (filter p l').
Proof.
  induction 1; cbn [filter]; auto.
  - destruct (p x); auto.
  - destruct (p x), (p y); auto. constructor.
  - eapply Permutation_trans; eauto.
Qed.
Lemma score_spec : forall e tol notes l beats, 0 < tol -> tol <= 1 -> 0 <= e -> (forall b, In b beats -> 0 <= b <= e) ->
  (forall a, In a notes -> 0 <= bn_start a) -> Permutation l notes ->
  exists v, beat_score (Qtrunc (1000 * (e + 1))) tol l beats = Ok v /\ v == loudness tol notes beats.
Proof.
  intros e tol notes l beats T T1 E HB HN P. unfold beat_score. cbv zeta.
  rewrite existsb_map.
  assert (F : existsb (fun b => (Qtrunc (1000 * (e + 1)) <? snd (beat_window tol b))%Z) (0 :: beats) = false).
  { apply Bool.not_true_is_false. intro K. apply existsb_exists in K. destruct K as [b [K1 K2]]. apply Z.ltb_lt in K2.
    assert (0 <= b <= e) by (destruct K1 as [<-|K1]; [split; lra|auto]).
    pose proof (window_fits tol b e T T1 ltac:(lra) ltac:(lra)). lia. }
  rewrite F. eexists; split; [reflexivity|]. unfold loudness. rewrite fold_total.
  match goal with |- context [total (map ?f l)] => assert (K : total (map f l) == total (map (fun a => if existsb (fun b => in_window tol b (Qfloor (1000 * bn_start a))) (0 :: beats) then bn_vel a else 0) l)) end.
  { apply total_ext. intros a Ha. rewrite existsb_map.
    rewrite (existsb_ext2 _ _ (fun b => in_window tol b (Qfloor (1000 * bn_start a))) (0 :: beats)); [reflexivity|].
    intros b Hb. rewrite window_spec; auto.
    - rewrite (trunc_f (bn_start a * 1000) (1000 * bn_start a)); [reflexivity| |ring].
      pose proof (HN a (Permutation_in _ P Ha)). lra.
    - destruct Hb as [<-|Hb]; [lra|]. apply HB in Hb. lra. }
  rewrite K, total_if. rewrite Qplus_0_l. rewrite (total_perm _ _ (Permutation_map bn_vel (perm_filter2 _ _ _ _ P))). reflexivity.
Qed.

Lemma all_ok_map : forall A B (f : A -> res B) (l : list A) (r : list B), Forall2 (fun a b => f a = Ok b) l r -> all_ok (map f l) = Ok r.
Proof. induction 1 as [|a b l r H F IH]; cbn [map all_ok]; auto. rewrite H. cbn [bind]. rewrite IH. reflexivity. Qed.

(** argmax *)
Lemma argmin_from_spec : forall l b m i, 
  let k := argmin_from b m i l in
  (k = b /\ (forall j x, nth_error l j = Some x -> m <= x)) \/
  (exists j x, k = (i + j)%nat /\ nth_error l j = Some x /\ x < m /\ (forall j' x', nth_error l j' = Some x' -> x <= x') /\
     forall j' x', (j' < j)%nat -> nth_error l j' = Some x' -> x < x').
Proof.
  induction l as [|y l IH]; intros b m i; cbn [argmin_from]; cbv zeta.
  - left. split; auto. intros [|j] x K; discriminate.
  - qcase (Qltb y m).
    + destruct (IH i y (S i)) as [[A B]|[j [x [A [B [C [D F]]]]]]].
      * right. exists O, y. cbv zeta in A. rewrite A. split; [lia|]. split; auto. split; auto. split.
        { intros [|j'] x' K; [injection K as <-; lra|]. apply (B j'). auto. }
        { intros; lia. }
      * right. exists (S j), x. cbv zeta in A. rewrite A. split; [lia|]. split; auto. split; [lra|]. split.
        { intros [|j'] x' K; [injection K as <-; lra|]. apply (D j'); auto. }
        { intros [|j'] x' L K; [injection K as <-; lra|]. apply (F j'); auto; lia. }
    + destruct (IH b m (S i)) as [[A B]|[j [x [A [B [C [D F]]]]]]].
      * left. split; auto. intros [|j'] x' K; [injection K as <-; lra|]. apply (B j'); auto.
      * right. exists (S j), x. cbv zeta in A. rewrite A. split; [lia|]. split; auto. split; [lra|]. split.
        { intros [|j'] x' K; [injection K as <-; lra|]. apply (D j'); auto. }
        { intros [|j'] x' L K; [injection K as <-; lra|]. apply (F j'); auto; lia. }
Qed.
Lemma argmin_spec : forall l, l <> [] -> exists x, nth_error l (argmin l) = Some x /\
  (forall j y, nth_error l j = Some y -> x <= y) /\ (forall j y, (j < argmin l)%nat -> nth_error l j = Some y -> x < y).
Proof.
  intros [|m l] H; [congruence|]. unfold argmin. destruct (argmin_from_spec l 0 m 1) as [[A B]|[j [x [A [B [C [D F]]]]]]]; cbv zeta in A; rewrite A.
  - exists m. split; [reflexivity|]. split; [|intros; lia]. intros [|j] y K; [injection K as <-; lra|]. apply (B j); auto.
  - exists x. split; [exact B|]. split.
    + intros [|j'] y K; [injection K as <-; lra|]. apply (D j'); auto.
    + intros [|j'] y L K; [injection K as <-; lra|]. apply (F j'); auto; lia.
Qed.
Lemma argmax_spec : forall l, l <> [] -> exists x, nth_error l (argmax l) = Some x /\
  (forall j y, nth_error l j = Some y -> y <= x) /\ (forall j y, (j < argmax l)%nat -> nth_error l j = Some y -> y < x).
Proof.
  intros l H. unfold argmax. destruct (argmin_spec (map Qopp l)) as [x [A [B C]]]; [destruct l; [congruence|discriminate]|].
  set (k := argmin (map Qopp l)) in *. rewrite nth_error_map in A. destruct (nth_error l k) as [z|] eqn:E; [|discriminate].
  cbn in A. injection A as <-. exists z. split; auto. split.
  - intros j y K. specialize (B j (- y)). rewrite nth_error_map, K in B. specialize (B eq_refl). lra.
  - intros j y L K. specialize (C j (- y) L). rewrite nth_error_map, K in C. specialize (C eq_refl). lra.
Qed.
Lemma Forall2_len : forall A B (R : A -> B -> Prop) l r, Forall2 R l r -> List.length l = List.length r.
Proof. induction 1; cbn; auto. Qed.
Lemma Forall2_nth : forall A B (R : A -> B -> Prop) l r i a, Forall2 R l r -> nth_error l i = Some a -> exists b, nth_error r i = Some b /\ R a b.
Proof. intros A B R l r i a F. revert i. induction F; intros [|i] H0; try discriminate; cbn in *; eauto. injection H0 as <-. eauto. Qed.
Lemma sort_notes_sorted : forall l, StronglySorted Qle (map bn_start (sort_notes l)).
Proof.
  intro l. apply sorted_map. assert (S : StronglySorted (fun a b => Qltb (bn_start b) (bn_start a) = false) (sort_notes l)).
  { apply (py_sort_sorted (fun a b => Qltb (bn_start a) (bn_start b))); intros; repeat match goal with H : Qltb _ _ = true |- _ => apply Qltb_lt in H | H : Qltb _ _ = false |- _ => apply Qltb_ge in H end; apply Qltb_ge; lra. }
  induction S; constructor; auto. eapply Forall_impl; [|eassumption]. intros b K. apply Qltb_ge in K. auto.
Qed.
Lemma fresh_in : forall l x, In x (fresh l) -> In x l.
Proof.
  intros [|a r] x H; [destruct H|]. destruct H as [H|H]; [left; auto|]. apply in_map_iff in H. destruct H as [[p q] [<- H]].
  apply filter_In in H. destruct H as [H _]. right. apply in_combine_r in H. exact H.
Qed.
Lemma firstn_in2 : forall A n (l : list A) x, In x (firstn n l) -> In x l.
Proof. intros A n l x H. rewrite <- (firstn_skipn n l). apply in_or_app. auto. Qed.

Lemma beats_all : forall m sigs others starts, tempo_map m -> meters sigs -> clear_of_tempo m sigs ->
  (forall s, In s starts -> 0 <= s < piece_end m (sort_sigs sigs) others) ->
  exists N bs, Forall2 (fun s l => beats_are m sigs others s l /\ l <> [] /\ forall b, In b l -> 0 <= b <= piece_end m (sort_sigs sigs) others) starts bs /\
  forall fuel, (N <= fuel)%nat -> all_ok (map (get_beats fuel m sigs others) starts) = Ok (map Some bs).
Proof.
  intros m sigs others starts T M C. induction starts as [|s r IH]; intro H.
  - exists O, []. split; [constructor|reflexivity].
  - destruct IH as [N [bs [F A]]]. { intros; apply H; right; auto. }
    destruct (C121a m sigs others s T M C) as [l [[N2 B] [_ [R [NE _]]]]].
    destruct (H s (or_introl eq_refl)) as [H1 H2].
    exists (Nat.max N N2), (l :: bs). split.
    + constructor; auto. split; [exists N2; auto|]. split.
      * destruct (NE H2) as [r' ->]. discriminate.
      * intros b Hb. apply R in Hb. lra.
    + intros fuel L. cbn [map all_ok]. rewrite B by lia. cbn [bind]. rewrite A by lia. reflexivity.
Qed.

Lemma map_insert : forall A B (f : A -> B) (lt : B -> B -> bool) x l,
  map f (insert_stable (fun a b => lt (f a) (f b)) x l) = insert_stable lt (f x) (map f l).
Proof. induction l as [|y l IH]; cbn [insert_stable map]; auto. destruct (lt (f y) (f x)); cbn [map]; [rewrite IH|]; reflexivity. Qed.
Lemma map_py_sort : forall A B (f : A -> B) (lt : B -> B -> bool) l,
  map f (py_sort (fun a b => lt (f a) (f b)) l) = py_sort lt (map f l).
Proof. unfold py_sort. induction l as [|x l IH]; cbn [fold_right map]; auto. rewrite (map_insert _ _ f lt), IH. reflexivity. Qed.
Lemma filter_ss : forall A (R : A -> A -> Prop) p l, StronglySorted R l -> StronglySorted R (filter p l).
Proof.
  induction 1 as [|a l S IH F]; cbn [filter]; [constructor|]. destruct (p a); auto. constructor; auto.
  apply Forall_forall. intros x Hx. apply filter_In in Hx. eapply Forall_forall; [exact F|]. tauto.
Qed.
Lemma combine_ss : forall a r, StronglySorted Qle r -> StronglySorted (fun p q : Q * Q => snd p <= snd q) (combine (a :: r) r).
Proof.
  intros a r H. revert a. induction H as [|b r S IH F]; intro a; [constructor|]. change (combine (a :: b :: r) (b :: r)) with ((a, b) :: combine (b :: r) r). constructor.
  - exact (IH b).
  - apply Forall_forall. intros [p q] K. apply in_combine_r in K. cbn [snd]. eapply Forall_forall; [exact F|]. auto.
Qed.
Lemma fresh_sorted : forall l, StronglySorted Qle l -> StronglySorted Qle (fresh l).
Proof.
  intros [|a r] H; [constructor|]. apply StronglySorted_inv in H. destruct H as [S F]. cbn [fresh]. constructor.
  - apply sorted_map. apply filter_ss. apply combine_ss. auto.
  - apply Forall_forall. intros x Hx. apply in_map_iff in Hx. destruct Hx as [[p q] [<- K]]. apply filter_In in K. destruct K as [K _].
    apply in_combine_r in K. cbn [snd]. eapply Forall_forall; [exact F|]. auto.
Qed.
Lemma firstn_ss : forall A (R : A -> A -> Prop) n l, StronglySorted R l -> StronglySorted R (firstn n l).
Proof.
  intros A R n l H. revert n. induction H as [|a l S IH F]; intros [|n]; cbn [firstn]; constructor; auto.
  apply Forall_forall. intros x Hx. eapply Forall_forall; [exact F|]. eapply firstn_in2; eauto.
Qed.
Lemma ss_nth : forall A (R : A -> A -> Prop) l i j a b, StronglySorted R l -> (i < j)%nat -> nth_error l i = Some a -> nth_error l j = Some b -> R a b.
Proof.
  intros A R l i j a b H. revert i j. induction H as [|x l S IH F]; intros i j L A1 B1; [destruct i; discriminate|].
  destruct j as [|j]; [lia|]. destruct i as [|i]; cbn in *.
  - injection A1 as <-. eapply Forall_forall; [exact F|]. eapply nth_error_In; eauto.
  - apply (IH i j); auto; lia.
Qed.
Lemma ebs_unfold : forall fuel tempi sigs others notes candidates tol, notes <> [] ->
  estimate_beat_start fuel tempi sigs others notes candidates tol =
  (let l := sort_notes notes in
    let starts := pick candidates (Z.of_nat (List.length l)) 0 None l in
    bind (all_ok (map (get_beats fuel tempi sigs others) starts)) (fun bs =>
    let siglen := Qtrunc (1000 * (piece_end tempi (sort_sigs sigs) others + 1)) in
    if existsb (fun b => match b with None | Some [] => true | _ => false end) bs then Ok None
    else
      bind (all_ok (map (fun b => match b with Some b => beat_score siglen tol l b | None => Ok 0 end) bs)) (fun scores =>
      match starts with
      | [] => Err ValueError
      | s :: _ => Ok (Some (nth (argmax scores) starts s))
      end))).
Proof. intros. unfold estimate_beat_start. destruct notes; [congruence|reflexivity]. Qed.
Lemma beat_start_spec : forall m sigs others notes cand tol, tempo_map m -> meters sigs -> clear_of_tempo m sigs ->
  notes <> [] -> (forall a, In a notes -> 0 <= bn_start a < bn_end a /\ In (bn_end a) others) -> (0 <= cand)%Z -> 0 < tol <= 1 ->
  let cands := firstn (Z.to_nat (cand + 1)) (fresh (sort_q (map bn_start notes))) in
  exists t l, (exists N, forall fuel, (N <= fuel)%nat -> estimate_beat_start fuel m sigs others notes cand tol = Ok (Some t)) /\
    In t cands /\ beats_are m sigs others t l /\
    (forall s ls, In s cands -> beats_are m sigs others s ls -> loudness tol notes ls <= loudness tol notes l) /\
    (forall s ls, In s cands -> s < t -> beats_are m sigs others s ls -> loudness tol notes ls < loudness tol notes l).
Proof.
  intros m sigs others notes cand tol T M C NN HN HC [T0 T1] cands.
  set (l := sort_notes notes).
  assert (P : Permutation l notes) by (apply Permutation_sym, py_sort_perm).
  assert (NL : l <> []) by (intro K; rewrite K in P; apply Permutation_nil in P; auto).
  set (e := piece_end m (sort_sigs sigs) others).
  set (starts := pick cand (Z.of_nat (List.length l)) 0 None l).
  assert (ST : starts = cands).
  { subst starts cands. rewrite pick_fresh; [|lia|lia|apply sort_notes_sorted].
    rewrite Z.sub_0_r. subst l. unfold sort_notes, sort_q. rewrite (map_py_sort _ _ bn_start Qltb). reflexivity. }
  assert (SRT : StronglySorted Qle cands) by (apply firstn_ss, fresh_sorted, sort_q_sorted).
  assert (IN : forall s, In s cands -> exists a, In a notes /\ bn_start a = s).
  { intros s Hs. apply firstn_in2, fresh_in in Hs. apply (Permutation_in _ (sort_q_perm _)) in Hs. apply in_map_iff in Hs. destruct Hs as [a [K1 K2]]. eauto. }
  assert (E0 : forall x, In x others -> x <= e).
  { destruct T as [T2 _]. intros x Hx. apply (proj1 (proj2 (piece_end_spec m (sort_sigs sigs) others T2))). auto. }
  assert (RG : forall s, In s starts -> 0 <= s < e).
  { rewrite ST. intros s Hs. destruct (IN s Hs) as [a [K1 <-]]. destruct (HN a K1) as [K2 K3]. specialize (E0 _ K3). lra. }
  assert (NE : starts <> []).
  { rewrite ST. subst cands. destruct (Z.to_nat (cand + 1)) as [|k] eqn:EK; [lia|].
    destruct (sort_q (map bn_start notes)) as [|x r] eqn:ES; [|discriminate].
    pose proof (sort_q_perm (map bn_start notes)) as K. rewrite ES in K. apply Permutation_nil, map_eq_nil in K. congruence. }
  assert (EP : 0 <= e). { destruct starts as [|s r]; [congruence|]. destruct (RG s (or_introl eq_refl)). lra. }
  destruct (beats_all m sigs others starts T M C RG) as [N [bs [F A]]].
  assert (SC : exists vs, Forall2 (fun b v => beat_score (Qtrunc (1000 * (e + 1))) tol l b = Ok v /\ v == loudness tol notes b) bs vs).
  { assert (G : Forall (fun b : list Q => forall x, In x b -> 0 <= x <= e) bs).
    { clear -F. induction F as [|s b starts bs [_ [_ H]] F IH]; constructor; auto. }
    clear -G T0 T1 EP HN P. induction G as [|b bs H G IH]; [exists []; constructor|]. destruct IH as [vs IH].
    destruct (score_spec e tol notes l b T0 T1 EP H) as [v [V1 V2]]; auto.
    { intros a Ha. destruct (HN a Ha). lra. }
    exists (v :: vs). constructor; auto. }
  destruct SC as [vs SC].
  assert (L1 : List.length starts = List.length bs) by (eapply Forall2_len; eauto).
  assert (L2 : List.length bs = List.length vs) by (eapply Forall2_len; eauto).
  assert (NV : vs <> []) by (intros ->; destruct bs, starts; try discriminate; congruence).
  destruct (argmax_spec vs NV) as [v [V1 [V2 V3]]]. set (k := argmax vs) in *.
  assert (KL : (k < List.length starts)%nat) by (rewrite L1, L2; apply nth_error_Some; congruence).
  destruct (nth_error starts k) as [t|] eqn:EK; [|apply nth_error_None in EK; lia].
  destruct (Forall2_nth _ _ _ _ _ _ _ F EK) as [b [EB [B1 [B2 B3]]]].
  destruct (Forall2_nth _ _ _ _ _ _ _ SC EB) as [v' [EV [_ EL]]]. assert (v' = v) by congruence. subst v'.
  exists t, b.
  assert (DET : forall s ls ls', beats_are m sigs others s ls -> beats_are m sigs others s ls' -> ls = ls').
  { intros s ls ls' [N1 X1] [N2 X2]. specialize (X1 (Nat.max N1 N2) ltac:(lia)). specialize (X2 (Nat.max N1 N2) ltac:(lia)). congruence. }
  assert (POS : forall s ls, In s cands -> beats_are m sigs others s ls -> exists i vi, nth_error starts i = Some s /\ nth_error vs i = Some vi /\ vi == loudness tol notes ls).
  { intros s ls Hs Hl. rewrite <- ST in Hs. apply In_nth_error in Hs. destruct Hs as [i Hi].
    destruct (Forall2_nth _ _ _ _ _ _ _ F Hi) as [bi [Ebi [Bi _]]]. assert (bi = ls) by (eapply DET; eauto). subst bi.
    destruct (Forall2_nth _ _ _ _ _ _ _ SC Ebi) as [vi [Evi [_ Eli]]]. eauto. }
  split; [|split; [|split; [|split]]].
  - exists N. intros fuel L. rewrite ebs_unfold by auto. cbv zeta. fold l. fold starts. rewrite A by auto. cbn [bind].
    assert (NB : existsb (fun b0 : option (list Q) => match b0 with None | Some [] => true | _ => false end) (map Some bs) = false).
    { clear -F. induction F as [|s b starts bs [_ [H _]] F IH]; cbn [map existsb]; auto. rewrite IH. destruct b; [congruence|reflexivity]. }
    rewrite NB. fold e.
    assert (AO : all_ok (map (fun b0 : option (list Q) => match b0 with Some b1 => beat_score (Qtrunc (1000 * (e + 1))) tol l b1 | None => Ok 0 end) (map Some bs)) = Ok vs).
    { rewrite map_map. apply all_ok_map. clear -SC. induction SC as [|b v bs vs [H _] F IH]; constructor; auto. }
    rewrite AO. cbn [bind]. fold k. destruct starts as [|s0 r1] eqn:ES; [congruence|]. rewrite (nth_error_nth _ _ s0 EK). reflexivity.
  - rewrite <- ST. eapply nth_error_In; eauto.
  - auto.
  - intros s ls Hs Hl. destruct (POS s ls Hs Hl) as [i [vi [P1 [P2 P3]]]]. rewrite <- P3, <- EL. eapply V2; eauto.
  - intros s ls Hs Hst Hl. destruct (POS s ls Hs Hl) as [i [vi [P1 [P2 P3]]]]. rewrite <- P3, <- EL.
    apply (V3 i vi); auto. destruct (Nat.lt_ge_cases i k) as [LT|GE]; auto. exfalso.
    rewrite <- ST in SRT. destruct (Nat.eq_dec i k) as [->|NEQ]; [rewrite P1 in EK; injection EK as ->; lra|].
    assert (t <= s) by (apply (ss_nth _ Qle starts k i); auto; lia). lra.
Qed.
