(** Lemmas: entries of the convolution. *)
From Coq Require Import Reals Lra Lia Permutation.
From Verif Require Import PyBase M_Network S_Network L_Network S_Network2.
Open Scope R_scope.

Lemma vadd_len a b : List.length (vadd a b) = Nat.min (List.length a) (List.length b).
Proof. revert b. induction a as [|x a IH]; intros [|y b]; cbn; auto. Qed.
Lemma vadd_nth a b d : List.length a = List.length b -> nth d (vadd a b) 0 = nth d a 0 + nth d b 0.
Proof. revert b d. induction a as [|x a IH]; intros [|y b] [|d]; cbn; intros L; try discriminate; try ring. apply IH. congruence. Qed.
Lemma vscale_len c a : List.length (vscale c a) = List.length a. Proof. apply map_length. Qed.
Lemma vscale_nth c a d : nth d (vscale c a) 0 = c * nth d a 0.
Proof. unfold vscale. revert d. induction a as [|x a IH]; intros [|d]; cbn; try ring. apply IH. Qed.
Lemma repeat_nth c d : nth d (repeat 0 c) 0 = 0.
Proof. revert d. induction c; intros [|d]; cbn; auto. Qed.
Lemma vsum_len c l : Forall (fun v => List.length v = c) l -> List.length (vsum c l) = c.
Proof. unfold vsum. induction 1; cbn; [apply repeat_length|]. rewrite vadd_len. lia. Qed.
Lemma vsum_nth c l d : Forall (fun v => List.length v = c) l -> nth d (vsum c l) 0 = total (map (fun v => nth d v 0) l).
Proof. induction 1 as [|v l L F IH]; [apply repeat_nth|]. cbn [vsum fold_right map total]. change (fold_right vadd (repeat 0 c) l) with (vsum c l). change (fold_right Rplus 0 (map (fun v => nth d v 0) l)) with (total (map (fun v => nth d v 0) l)). rewrite vadd_nth; [rewrite IH; reflexivity|]. rewrite L. symmetry. apply vsum_len. auto. Qed.
Lemma vmat_len c a w : Forall (fun v => List.length v = c) w -> List.length (vmat c a w) = c.
Proof. intros F. revert a. induction F as [|r w L F IH]; intros [|x a]; cbn; try apply repeat_length. rewrite vadd_len, vscale_len, IH. lia. Qed.
Lemma vmat_nth c w : Forall (fun v => List.length v = c) w -> forall a d, List.length a = List.length w ->
  nth d (vmat c a w) 0 = total (map (fun e => nth e a 0 * nth d (nth e w []) 0) (seq 0 (List.length w))).
Proof.
  induction 1 as [|r w L F IH]; intros [|x a] d LA; try discriminate LA; cbn [vmat]; [apply repeat_nth|].
  rewrite vadd_nth by (rewrite vscale_len, vmat_len; auto). rewrite vscale_nth, IH by (cbn in LA; congruence). cbn [List.length seq map total fold_right nth]. f_equal.
  rewrite <- seq_shift, map_map. reflexivity.
Qed.
Lemma addmm_len c beta a w : Forall (fun v => List.length v = c) w -> List.length a = c -> List.length (addmm c beta a w) = c.
Proof. intros F A. unfold addmm. rewrite vadd_len, !vscale_len, vmat_len; auto. lia. Qed.
Lemma addmm_nth c beta a w d : matrix c c w -> List.length a = c ->
  nth d (addmm c beta a w) 0 = (1 - beta) * nth d a 0 + beta * total (map (fun e => nth e a 0 * entry w e d) (seq 0 c)).
Proof.
  intros [W1 W2] A. unfold addmm. rewrite vadd_nth by (rewrite !vscale_len, vmat_len; auto). rewrite !vscale_nth, (vmat_nth c w W2 a d (eq_trans A (eq_sym W1))). unfold vec in *. rewrite W1. reflexivity.
Qed.
Lemma conv_nth c alpha k edges x x0 n i d : matrix n c x -> matrix n c x0 -> valid x edges -> (i < n)%nat -> matrix c c (c_w1 k) -> (forall w, c_w2 k = Some w -> matrix c c w) ->
  let p := fun i d => (1 - alpha) * spread edges x i d in let q := fun i d => alpha * entry x0 i d in
  entry (conv_forward c alpha k edges x x0) i d =
    match c_w2 k with None => mixed c (c_beta k) (fun i d => p i d + q i d) (c_w1 k) i d | Some w2 => mixed c (c_beta k) p (c_w1 k) i d + mixed c (c_beta k) q w2 i d end.
Proof.
  intros [X1 X2] [Y1 Y2] V I W1 W2 p q. unfold entry, conv_forward. rewrite (rows2_nth _ _ _ _ [] [] []) by (rewrite ?prop_length; lia). rewrite prop_nth by lia.
  set (s := vsum c (map (fun j => nth j x []) (predecessors edges i))).
  assert (PF : Forall (fun v => List.length v = c) (map (fun j => nth j x []) (predecessors edges i))).
  { rewrite Forall_forall in X2. apply Forall_forall. intros v Hv. apply in_map_iff in Hv as (j & <- & J). apply X2, nth_In. eapply pred_valid; eauto. }
  assert (SL : List.length s = c) by (apply vsum_len; auto).
  assert (SN : forall d, nth d s 0 = spread edges x i d) by (intros d0; unfold s; rewrite vsum_nth, map_map; auto).
  assert (YL : List.length (nth i x0 []) = c) by (rewrite Forall_forall in Y2; apply Y2, nth_In; lia).
  unfold conv_row. cbv zeta. destruct (c_w2 k) as [w2|] eqn:K.
  - specialize (W2 w2 eq_refl). rewrite vadd_nth by (rewrite !addmm_len; rewrite ?vscale_len; auto; try apply W1; apply W2). rewrite !addmm_nth by (rewrite ?vscale_len; auto).
    unfold mixed, p, q, entry. rewrite !vscale_nth, SN. do 2 f_equal; f_equal; f_equal; apply map_ext; intros e; rewrite vscale_nth, ?SN; reflexivity.
  - rewrite addmm_nth; [|auto|rewrite vadd_len, !vscale_len; lia]. unfold mixed, p, q, entry.
    assert (VN : forall d, nth d (vadd (vscale (1 - alpha) s) (vscale alpha (nth i x0 []))) 0 = (1 - alpha) * spread edges x i d + alpha * nth d (nth i x0 []) 0).
    { intros d0. rewrite vadd_nth by (rewrite !vscale_len; congruence). rewrite !vscale_nth, SN. reflexivity. }
    rewrite VN. f_equal. f_equal. f_equal. apply map_ext. intros e. rewrite VN. reflexivity.
Qed.

Lemma inner_nth a b : List.length a = List.length b -> inner a b = total (map (fun e => nth e a 0 * nth e b 0) (seq 0 (List.length b))).
Proof. revert b. induction a as [|x a IH]; intros [|y b] L; try discriminate L; cbn [inner List.length seq map total fold_right nth]; auto. rewrite IH by (cbn in L; congruence). f_equal. rewrite <- seq_shift, map_map. reflexivity. Qed.
Lemma linear_len c d l a : linear_of c d l -> List.length (apply_linear l a) = d.
Proof. intros [[W _] B]. unfold apply_linear. rewrite vadd_len, map_length. unfold vec in *. rewrite W, B. lia. Qed.
Lemma linear_nth c d l a j : linear_of c d l -> List.length a = c -> (j < d)%nat ->
  nth j (apply_linear l a) 0 = total (map (fun e => nth e a 0 * entry (l_weight l) j e) (seq 0 c)) + nth j (l_bias l) 0.
Proof.
  intros [[W1 W2] B] A J. unfold apply_linear. rewrite vadd_nth by (rewrite map_length; unfold vec in *; congruence). f_equal.
  rewrite (nth_indep _ 0 (inner a [])) by (rewrite map_length; unfold vec in *; lia). rewrite (map_nth (inner a)).
  assert (K : List.length (nth j (l_weight l) []) = c) by (rewrite Forall_forall in W2; apply W2, nth_In; unfold vec in *; lia).
  rewrite inner_nth by congruence. rewrite K. reflexivity.
Qed.
Lemma relu_nth a d : nth d (relu a) 0 = Rmax 0 (nth d a 0).
Proof. unfold relu. revert d. induction a as [|x a IH]; intros [|d]; cbn; auto; rewrite Rmax_left; auto; lra. Qed.
Lemma matrix_row m r c i : matrix r c m -> (i < r)%nat -> List.length (nth i m []) = c.
Proof. intros [M1 M2] I. rewrite Forall_forall in M2. apply M2, nth_In. lia. Qed.
Lemma matrix_map m r c c' f : matrix r c m -> (forall v, List.length v = c -> List.length (f v) = c') -> matrix r c' (map f m).
Proof. intros [M1 M2] F. split; [rewrite map_length; auto|]. clear M1. induction M2; cbn; constructor; auto. Qed.
Lemma matrix_of m r c : List.length m = r -> (forall i, (i < r)%nat -> List.length (nth i m []) = c) -> matrix r c m.
Proof. intros L H. split; auto. apply Forall_forall. intros v V. apply In_nth with (d := []) in V as (i & I & <-). apply H. lia. Qed.
Lemma conv_row_len c alpha k p x0 : List.length p = c -> List.length x0 = c -> matrix c c (c_w1 k) -> (forall w, c_w2 k = Some w -> matrix c c w) -> List.length (conv_row c alpha k p x0) = c.
Proof.
  intros P X W1 W2. unfold conv_row. cbv zeta. destruct (c_w2 k) as [w2|]; [rewrite vadd_len, !addmm_len; rewrite ?vscale_len; auto; try apply W1; try (apply (W2 w2 eq_refl)); lia|].
  apply addmm_len; [apply W1|]. rewrite vadd_len, !vscale_len. lia.
Qed.
Lemma conv_matrix c alpha k edges x x0 n : matrix n c x -> matrix n c x0 -> valid x edges -> matrix c c (c_w1 k) -> (forall w, c_w2 k = Some w -> matrix c c w) -> matrix n c (conv_forward c alpha k edges x x0).
Proof.
  intros X X0 V W1 W2. apply matrix_of; [unfold conv_forward; rewrite rows2_length, prop_length; destruct X, X0; lia|]. intros i I. unfold conv_forward.
  rewrite (rows2_nth _ _ _ _ [] [] []) by (rewrite ?prop_length; destruct X, X0; lia). apply conv_row_len; auto; [|eapply matrix_row; eauto].
  rewrite prop_nth by (destruct X; lia). apply vsum_len. destruct X as [X1 X2]. rewrite Forall_forall in *. intros v Hv. apply in_map_iff in Hv as (j & <- & J). apply X2, nth_In. eapply pred_valid; eauto.
Qed.
Lemma valid_len x y edges : List.length x = List.length y -> valid x edges -> valid y edges.
Proof. unfold valid. intros ->. auto. Qed.
Lemma mixed_ext c beta y y' w i d : (forall e, (e < c)%nat -> y i e = y' i e) -> (d < c)%nat -> mixed c beta y w i d = mixed c beta y' w i d.
Proof. intros H D. unfold mixed. rewrite H by auto. f_equal. f_equal. f_equal. apply map_ext_in. intros e E. apply in_seq in E. rewrite H by lia. auto. Qed.
Section Net.
Variables (n : network) (N : nat) (edges : list (nat * nat)).
Let c := w_hidden n.
Lemma layers ks x0 (y0 : nat -> nat -> R) : Forall (fun k => matrix c c (c_w1 k) /\ forall w, c_w2 k = Some w -> matrix c c w) ks -> matrix N c x0 -> valid x0 edges ->
  (forall i d, (i < N)%nat -> (d < c)%nat -> entry x0 i d = y0 i d) ->
  matrix N c (fold_left (layer n edges x0) ks x0) /\
  forall i d, (i < N)%nat -> (d < c)%nat -> entry (fold_left (layer n edges x0) ks x0) i d =
    fold_left (fun x k => fun i d => Rmax 0 (convolved c (w_alpha n) k edges x y0 i d + x i d)) ks y0 i d.
Proof.
  intros F M V E. induction ks as [|k ks IH] using rev_ind; [split; auto|]. apply Forall_app in F as [F1 F2]. inversion F2 as [|? ? [W1 W2] _]; subst. destruct (IH F1) as [M' E'].
  rewrite !fold_left_app. cbn [fold_left]. set (x := fold_left (layer n edges x0) ks x0) in *. set (y := fold_left (fun x k => fun i d => Rmax 0 (convolved c (w_alpha n) k edges x y0 i d + x i d)) ks y0) in *.
  assert (VX : valid x edges) by (eapply valid_len; [|exact V]; destruct M, M'; congruence).
  pose proof (conv_matrix c (w_alpha n) k edges x x0 N M' M VX W1 W2) as CM.
  assert (LM : matrix N c (rows2 vadd (conv_forward c (w_alpha n) k edges x x0) x)).
  { apply matrix_of; [rewrite rows2_length; destruct CM, M'; lia|]. intros i I. rewrite (rows2_nth vadd _ _ _ [] [] []) by (destruct CM, M'; lia). rewrite vadd_len, (matrix_row _ _ _ _ CM I), (matrix_row _ _ _ _ M' I). lia. }
  split; [unfold layer; fold c; eapply matrix_map; [exact LM|]; intros v Hv; unfold relu; rewrite map_length; auto|]. intros i d I D.
  unfold entry, layer. fold c. change (@nil R) with (relu []). rewrite map_nth, relu_nth. f_equal.
  rewrite (rows2_nth vadd _ _ _ [] [] []) by (destruct CM, M'; lia). rewrite vadd_nth by (rewrite (matrix_row _ _ _ _ CM I), (matrix_row _ _ _ _ M' I); auto).
  assert (SP : forall j, (j < c)%nat -> spread edges x i j = total (map (fun h => y h j) (predecessors edges i))).
  { intros j J. unfold spread. f_equal. apply map_ext_in. intros h H. apply E'; auto. destruct M' as [M1 _]. rewrite <- M1. eapply pred_valid; eauto. }
  f_equal; [|apply E'; auto]. change (nth d (nth i (conv_forward c (w_alpha n) k edges x x0) []) 0) with (entry (conv_forward c (w_alpha n) k edges x x0) i d).
  rewrite (conv_nth c (w_alpha n) k edges x x0 N i d M' M VX I W1 W2). unfold convolved. destruct (c_w2 k) as [w2|].
  - f_equal; apply mixed_ext; auto; intros e He; [rewrite SP by auto|rewrite E by auto]; auto.
  - apply mixed_ext; auto. intros e He. rewrite SP, E by auto. auto.
Qed.
Lemma scores_ok f o feats out : fits n f o -> matrix N f feats -> forward n feats edges = Ok out -> matrix N o out /\ forall i d, (i < N)%nat -> (d < o)%nat -> entry out i d = scores n f feats edges i d.
Proof.
  intros (FI & FO & FC) M E.
  assert (V : valid feats edges).
  { apply Forall_forall. intros e He. unfold forward in E. destruct (forallb _ edges) eqn:B; [|discriminate]. rewrite forallb_forall in B. specialize (B e He). rewrite andb_true_iff, !Nat.ltb_lt in B. auto. }
  apply forward_eq in E. set (g := fun r => relu (apply_linear (w_in n) r)) in *.
  assert (M0 : matrix N c (map g feats)) by (eapply matrix_map; [exact M|]; intros v Hv; unfold g, relu; rewrite map_length; eapply linear_len; eauto).
  assert (V0 : valid (map g feats) edges) by (eapply valid_len; [|exact V]; rewrite map_length; auto).
  assert (E0 : forall i d, (i < N)%nat -> (d < c)%nat -> entry (map g feats) i d = Rmax 0 (line f (w_in n) (entry feats) i d)).
  { intros i d I D. unfold entry at 1. rewrite (nth_indep _ [] (g [])) by (rewrite map_length; destruct M as [M1 _]; unfold vec in *; lia). rewrite map_nth. unfold g at 1. rewrite relu_nth. f_equal.
    rewrite (linear_nth f c _ _ d FI (matrix_row _ _ _ _ M I) D). reflexivity. }
  destruct (layers (w_convs n) (map g feats) _ FC M0 V0 E0) as [ML EL]. split; [rewrite E; eapply matrix_map; [exact ML|]; intros; eapply linear_len; eauto|].
  intros i d I D. rewrite E. unfold entry at 1. rewrite (nth_indep _ [] (apply_linear (w_out n) [])) by (rewrite map_length; destruct ML as [M1 _]; unfold vec in *; lia). rewrite map_nth.
  rewrite (linear_nth c o _ _ d FO (matrix_row _ _ _ _ ML I) D). unfold scores, line. f_equal. f_equal. apply map_ext_in. intros e He. apply in_seq in He. f_equal. apply EL; auto. lia.
Qed.
End Net.
