(** Lemmas for node classification by message passing. *)
From Coq Require Import Reals Lra Lia Permutation.
From Verif Require Import PyBase M_Network S_Network.

Lemma vadd_comm : forall a b, vadd a b = vadd b a.
Proof. induction a as [|x a IH]; intros [|y b]; cbn; auto. f_equal; [ring|auto]. Qed.
Lemma vadd_assoc : forall a b c, vadd a (vadd b c) = vadd (vadd a b) c.
Proof. induction a as [|x a IH]; intros [|y b] [|z c]; cbn; auto. f_equal; [ring|auto]. Qed.
Lemma vsum_perm c l l' : Permutation l l' -> vsum c l = vsum c l'.
Proof. unfold vsum. induction 1 as [|x l l' P IH|x y l|l l' l'' P1 IH1 P2 IH2]; cbn; auto; [rewrite IH; auto|rewrite !vadd_assoc, (vadd_comm x y); auto|congruence]. Qed.
Lemma sources_pred edges i : sources edges i = predecessors edges i.
Proof.
  unfold sources, predecessors. induction edges as [|e edges IH]; cbn; auto. destruct (Nat.eq_dec (snd e) i) as [E|E].
  - rewrite (proj2 (Nat.eqb_eq _ _) E). cbn. f_equal. auto.
  - rewrite (proj2 (Nat.eqb_neq _ _) E). auto.
Qed.
Lemma pred_valid feats edges i j : valid feats edges -> In j (predecessors edges i) -> (j < List.length feats)%nat.
Proof.
  intros V H. unfold predecessors in H. apply in_flat_map in H as (e & E & J). unfold valid in V. rewrite Forall_forall in V. destruct (Nat.eq_dec (snd e) i); [|destruct J]. destruct J as [<-|[]]. apply V. auto.
Qed.
Lemma rows2_length f a b : List.length (rows2 f a b) = Nat.min (List.length a) (List.length b).
Proof. revert b. induction a as [|x a IH]; intros [|y b]; cbn; auto. Qed.
Lemma rows2_nth f a b i d d' d'' : (i < List.length a)%nat -> (i < List.length b)%nat -> nth i (rows2 f a b) d = f (nth i a d') (nth i b d'').
Proof. revert b i. induction a as [|x a IH]; intros [|y b] [|i]; cbn; intros; try lia; auto. apply IH; lia. Qed.
Lemma prop_length c edges x : List.length (propagate c edges x) = List.length x.
Proof. unfold propagate. rewrite map_length, seq_length. auto. Qed.
Lemma prop_nth c edges x i : (i < List.length x)%nat -> nth i (propagate c edges x) [] = vsum c (map (fun j => nth j x []) (predecessors edges i)).
Proof.
  intros I. unfold propagate. rewrite (nth_indep _ [] (vsum c (map (fun j => nth j x []) (sources edges 0)))) by (rewrite map_length, seq_length; auto).
  rewrite (map_nth (fun i => vsum c (map (fun j => nth j x []) (sources edges i)))). rewrite seq_nth by auto. cbn [Nat.add]. rewrite sources_pred. auto.
Qed.
Lemma layer_length n edges x0 x k : List.length x = List.length x0 -> List.length (layer n edges x0 x k) = List.length x0.
Proof. intros E. unfold layer, conv_forward. rewrite map_length, !rows2_length, prop_length. lia. Qed.
Lemma layer_nth n edges x0 x k i : List.length x = List.length x0 -> (i < List.length x0)%nat ->
  nth i (layer n edges x0 x k) [] = relu (vadd (conv_row (w_hidden n) (w_alpha n) k (vsum (w_hidden n) (map (fun j => nth j x []) (predecessors edges i))) (nth i x0 [])) (nth i x [])).
Proof.
  intros E I. unfold layer. change (@nil R) with (relu []) at 1. rewrite map_nth. f_equal. unfold conv_forward.
  rewrite (rows2_nth vadd _ _ _ [] [] []); [|rewrite rows2_length, prop_length; lia|lia]. f_equal.
  rewrite (rows2_nth _ _ _ _ [] [] []); [|rewrite prop_length; lia|lia]. f_equal. apply prop_nth. lia.
Qed.
Lemma fold_length n edges x0 ks : List.length (fold_left (layer n edges x0) ks x0) = List.length x0.
Proof.
  induction ks as [|k ks IH] using rev_ind; cbn; auto. rewrite fold_left_app. cbn. apply layer_length. auto.
Qed.

Lemma alike_0 feats edges feats' edges' i i' k : alike k feats edges feats' edges' i i' -> nth_error feats i = nth_error feats' i'.
Proof. destruct k; intros [H _]; auto. Qed.
Lemma F2_imp {A B} (R R' : A -> B -> Prop) l l' : (forall a b, R a b -> R' a b) -> Forall2 R l l' -> Forall2 R' l l'.
Proof. intros H. induction 1; constructor; auto. Qed.
Lemma alike_down k : forall feats edges feats' edges' i i', alike (S k) feats edges feats' edges' i i' -> alike k feats edges feats' edges' i i'.
Proof.
  induction k as [|k IH]; intros feats edges feats' edges' i i' [E H]; split; auto.
  destruct H as (l & P & F). exists l. split; auto. eapply F2_imp; [|exact F]. intros a b. apply IH.
Qed.

Section Two.
Variables (n : network) (feats : list vec) (edges : list (nat * nat)) (feats' : list vec) (edges' : list (nat * nat)).
Hypothesis V : valid feats edges.
Hypothesis V' : valid feats' edges'.
Let f (r : vec) : vec := relu (apply_linear (w_in n) r).

Lemma start_nth (fs : list vec) i : (i < List.length fs)%nat -> nth i (map f fs) [] = f (nth i fs []).
Proof. intros I. rewrite (nth_indep _ [] (f [])) by (rewrite map_length; auto). apply map_nth. Qed.
Lemma state_alike ks : forall i i', (i < List.length feats)%nat -> alike (List.length ks) feats edges feats' edges' i i' ->
  nth i (fold_left (layer n edges (map f feats)) ks (map f feats)) [] = nth i' (fold_left (layer n edges' (map f feats')) ks (map f feats')) [].
Proof.
  assert (RANGE : forall k i i', (i < List.length feats)%nat -> alike k feats edges feats' edges' i i' -> (i' < List.length feats')%nat /\ nth i feats [] = nth i' feats' []).
  { intros k i i' I A. apply alike_0 in A. destruct (nth_error feats i) as [r|] eqn:E; [|apply nth_error_None in E; lia].
    split; [apply nth_error_Some; congruence|]. symmetry in A. rewrite (nth_error_nth _ _ _ E), (nth_error_nth _ _ _ A). auto. }
  assert (START : forall k i i', (i < List.length feats)%nat -> alike k feats edges feats' edges' i i' -> nth i (map f feats) [] = nth i' (map f feats') []).
  { intros k i i' I A. destruct (RANGE k i i' I A) as [I' E]. rewrite !start_nth by auto. congruence. }
  induction ks as [|k ks IH] using rev_ind; intros i i' I A; [cbn; eapply START; eauto|].
  rewrite app_length in A. cbn [List.length] in A. rewrite Nat.add_1_r in A. pose proof (alike_down _ _ _ _ _ _ _ A) as A1. destruct (RANGE _ _ _ I A) as [I' _].
  rewrite !fold_left_app. cbn [fold_left]. rewrite !layer_nth; try (rewrite ?fold_length, map_length; auto); try (rewrite fold_length; auto).
  rewrite (START _ _ _ I A1), (IH _ _ I A1). do 3 f_equal. destruct A as [_ (l & P & F)].
  rewrite <- (vsum_perm _ _ _ (Permutation_map (fun j => nth j (fold_left (layer n edges' (map f feats')) ks (map f feats')) []) P)). f_equal.
  assert (PV : forall j, In j (predecessors edges i) -> (j < List.length feats)%nat) by (intros j J; eapply pred_valid; eauto).
  clear P A1 I' I START RANGE. induction F as [|a b l0 l1 H F IHF]; cbn [map]; auto. f_equal; [apply IH; auto; apply PV; left; auto|apply IHF; intros; apply PV; right; auto].
Qed.
Lemma forward_ok : exists out, forward n feats edges = Ok out /\ List.length out = List.length feats.
Proof.
  unfold forward. replace (forallb _ edges) with true; [eexists; split; [reflexivity|]; rewrite map_length, fold_length, map_length; auto|].
  symmetry. apply forallb_forall. intros e E. unfold valid in V. rewrite Forall_forall in V. destruct (V e E). rewrite andb_true_iff, !Nat.ltb_lt. auto.
Qed.
End Two.
Lemma forward_err n feats edges : ~ valid feats edges -> forward n feats edges = Err IndexError.
Proof.
  intros N. unfold forward. destruct (forallb _ edges) eqn:E; auto. exfalso. apply N. apply Forall_forall. intros e He. rewrite forallb_forall in E. specialize (E e He). rewrite andb_true_iff, !Nat.ltb_lt in E. auto.
Qed.
Lemma forward_eq n feats edges out : forward n feats edges = Ok out ->
  out = map (apply_linear (w_out n)) (fold_left (layer n edges (map (fun r => relu (apply_linear (w_in n) r)) feats)) (w_convs n) (map (fun r => relu (apply_linear (w_in n) r)) feats)).
Proof. unfold forward. destruct (forallb _ edges); [|discriminate]. intros H. injection H as <-. auto. Qed.
Lemma forward_alike n feats edges feats' edges' i i' : valid feats edges -> (i < List.length feats)%nat ->
  alike (List.length (w_convs n)) feats edges feats' edges' i i' -> forall out out', forward n feats edges = Ok out -> forward n feats' edges' = Ok out' -> nth_error out i = nth_error out' i'.
Proof.
  intros V I A out out' E E'. apply forward_eq in E. apply forward_eq in E'. pose proof (state_alike n feats edges feats' edges' V (w_convs n) i i' I A) as S.
  assert (I' : (i' < List.length feats')%nat).
  { apply alike_0 in A. apply nth_error_Some. rewrite <- A. apply nth_error_Some. auto. }
  assert (L : List.length out = List.length feats) by (rewrite E, map_length, fold_length, map_length; auto).
  assert (L' : List.length out' = List.length feats') by (rewrite E', map_length, fold_length, map_length; auto).
  rewrite (nth_error_nth' out (apply_linear (w_out n) [])) by lia. rewrite (nth_error_nth' out' (apply_linear (w_out n) [])) by lia. f_equal.
  rewrite E, E', !map_nth. f_equal. auto.
Qed.

(** ** Cases of looking alike *)
Lemma F2_map_r {A B} (R : A -> B -> Prop) (g : A -> B) l : (forall x, In x l -> R x (g x)) -> Forall2 R l (map g l).
Proof. induction l; cbn; intros H; constructor; [apply H; left; auto|apply IHl; intros; apply H; right; auto]. Qed.
(** A map that keeps features and carries predecessors to predecessors. *)
Lemma alike_map (g : nat -> nat) (D : nat -> Prop) feats edges feats' edges' :
  (forall i, D i -> nth_error feats i = nth_error feats' (g i) /\ Permutation (map g (predecessors edges i)) (predecessors edges' (g i)) /\ Forall D (predecessors edges i)) ->
  forall k i, D i -> alike k feats edges feats' edges' i (g i).
Proof.
  intros H. induction k as [|k IH]; intros i Di; destruct (H i Di) as (E & P & F); split; auto. exists (map g (predecessors edges i)). split; auto.
  apply F2_map_r. intros x X. apply IH. rewrite Forall_forall in F. auto.
Qed.
Lemma pred_perm edges edges' i : Permutation edges edges' -> Permutation (predecessors edges i) (predecessors edges' i).
Proof. intros P. unfold predecessors. apply Permutation_flat_map. auto. Qed.
Lemma pred_map (g : nat -> nat) (D : nat -> Prop) edges i : (forall a b, D a -> D b -> g a = g b -> a = b) -> Forall (fun e => D (snd e)) edges -> D i ->
  predecessors (map (fun e => (g (fst e), g (snd e))) edges) (g i) = map g (predecessors edges i).
Proof.
  intros INJ F Di. unfold predecessors. induction F as [|e edges De F IH]; [reflexivity|]. cbn [map flat_map fst snd]. rewrite map_app, IH. f_equal.
  destruct (Nat.eq_dec (snd e) i) as [E1|N]; destruct (Nat.eq_dec (g (snd e)) (g i)) as [E2|N2]; auto; [congruence|]. exfalso. apply N. apply INJ; auto.
Qed.
Lemma pred_app e1 e2 i : predecessors (e1 ++ e2) i = predecessors e1 i ++ predecessors e2 i.
Proof. unfold predecessors. rewrite flat_map_app. auto. Qed.
Lemma pred_none edges i : (forall e, In e edges -> snd e <> i) -> predecessors edges i = [].
Proof. intros H. unfold predecessors. induction edges as [|e edges IH]; cbn; auto. destruct (Nat.eq_dec (snd e) i) as [E|]; [exfalso; eapply H; [left; reflexivity|auto]|]. cbn. apply IH. intros. apply H. right; auto. Qed.
