From Coq Require Import Sorted Permutation Relations QArith Qabs Lia Lqa.
From Verif Require Import PyBase L_Base L_Sort M_Note L_Note M_Events M_Seq S_Seq L_Seq M_Chord M_Graph S_Graph L_Chord L_Chord2 L_Chord3 L_Graph L_Graph2 L_Graph3.
Open Scope Z_scope.

(** Velocities. *)
Lemma lmin_spec : forall l, l <> [] -> In (lmin l) l /\ (forall x, In x l -> lmin l <= x).
Proof.
  intros [|a l] H; [congruence|]. clear H. unfold lmin.
  assert (G : forall l a, (fold_left Z.min l a = a \/ In (fold_left Z.min l a) l) /\ fold_left Z.min l a <= a /\ (forall x, In x l -> fold_left Z.min l a <= x)).
  { clear. induction l as [|b l IH]; intros a; cbn; [split; [auto|split; [lia|intros ? []]]|].
    destruct (IH (Z.min a b)) as [A [B C]]. split; [|split; [lia|intros x [<-|H]; [lia|auto]]]. destruct A as [A|A]; [|auto]. rewrite A. destruct (Z.min_spec a b) as [[_ ->]|[_ ->]]; auto. }
  destruct (G l a) as [A [B C]]. split; [destruct A as [->|A]; [left; auto|right; auto]|]. intros x [<-|H]; auto.
Qed.
Lemma lmax_spec : forall l, l <> [] -> In (lmax l) l /\ (forall x, In x l -> x <= lmax l).
Proof.
  intros [|a l] H; [congruence|]. clear H. unfold lmax.
  assert (G : forall l a, (fold_left Z.max l a = a \/ In (fold_left Z.max l a) l) /\ a <= fold_left Z.max l a /\ (forall x, In x l -> x <= fold_left Z.max l a)).
  { clear. induction l as [|b l IH]; intros a; cbn; [split; [auto|split; [lia|intros ? []]]|].
    destruct (IH (Z.max a b)) as [A [B C]]. split; [|split; [lia|intros x [<-|H]; [lia|auto]]]. destruct A as [A|A]; [|auto]. rewrite A. destruct (Z.max_spec a b) as [[_ ->]|[_ ->]]; auto. }
  destruct (G l a) as [A [B C]]. split; [destruct A as [->|A]; [left; auto|right; auto]|]. intros x [<-|H]; auto.
Qed.
Lemma rescale_two : forall v, (2 <= List.length v)%nat -> rescale v =
  if lmax v - lmin v <=? 0 then Ok (map (fun _ => 32) v)
  else Ok (map (fun x => Z.quot (clip 0 (127 * (lmax v - lmin v)) ((x - lmin v) * 95 + 32 * (lmax v - lmin v))) (lmax v - lmin v)) v).
Proof. intros [|a [|b v]] H; cbn in H; try lia. reflexivity. Qed.
Lemma rescale_value : forall mn d x, 0 < d -> mn <= x <= mn + d ->
  Z.quot (clip 0 (127 * d) ((x - mn) * 95 + 32 * d)) d = 32 + (x - mn) * 95 / d.
Proof.
  intros mn d x D X. replace (clip 0 (127 * d) ((x - mn) * 95 + 32 * d)) with ((x - mn) * 95 + 32 * d) by (unfold clip; nia).
  rewrite Z.quot_div_nonneg by nia. rewrite Z.div_add by lia. lia.
Qed.
Lemma rescale_total : forall v, v <> [] -> exists w, rescale v = Ok w /\ List.length w = List.length v /\ Forall (fun y => 32 <= y <= 127) w /\
  (forall i j, (i < List.length v)%nat -> (j < List.length v)%nat -> nth i v 0 <= nth j v 0 -> nth i w 0 <= nth j w 0).
Proof.
  intros [|a [|b v]] H; [congruence| |].
  - cbn. eexists. split; [reflexivity|]. cbn. split; [auto|]. split; [constructor; [|constructor]; unfold clip; lia|].
    intros i j Hi Hj _. replace i with O by lia. replace j with O by lia. cbn. lia.
  - set (l := a :: b :: v) in *. rewrite rescale_two by (cbn; lia). destruct (lmin_spec l H) as [M1 M2]. destruct (lmax_spec l H) as [X1 X2].
    destruct (Z.leb_spec (lmax l - lmin l) 0) as [D|D].
    + eexists. split; [reflexivity|]. rewrite map_length. split; [auto|]. split.
      * apply Forall_forall. intros y Hy. apply in_map_iff in Hy as [? [<- _]]. lia.
      * intros i j Hi Hj _. assert (K : forall i, (i < List.length l)%nat -> nth i (map (fun _ : Z => 32) l) 0 = 32); [|rewrite !K by auto; lia].
        clear. induction l as [|x l IH]; intros [|i] Hi; cbn in *; try lia; auto. apply IH. lia.
    + set (f := fun x => Z.quot (clip 0 (127 * (lmax l - lmin l)) ((x - lmin l) * 95 + 32 * (lmax l - lmin l))) (lmax l - lmin l)).
      assert (F : forall x, In x l -> f x = 32 + (x - lmin l) * 95 / (lmax l - lmin l)) by (intros x Hx; apply rescale_value; [lia|]; specialize (M2 x Hx); specialize (X2 x Hx); lia).
      eexists. split; [reflexivity|]. rewrite map_length. split; [auto|]. split.
      * apply Forall_forall. intros y Hy. apply in_map_iff in Hy as [x [<- Hx]]. change (32 <= f x <= 127). rewrite F by auto. specialize (M2 x Hx). specialize (X2 x Hx).
        split; [pose proof (Z.div_pos ((x - lmin l) * 95) (lmax l - lmin l)); lia|].
        assert ((x - lmin l) * 95 / (lmax l - lmin l) <= 95); [|lia]. apply Z.div_le_upper_bound; nia.
      * intros i j Hi Hj LE. fold f. rewrite (nth_indep (map f l) 0 (f 0)) by (rewrite map_length; auto). rewrite (nth_indep (map f l) 0 (f 0) (n := j)) by (rewrite map_length; auto). rewrite !map_nth.
        rewrite !F by (apply nth_In; auto). assert ((nth i l 0 - lmin l) * 95 / (lmax l - lmin l) <= (nth j l 0 - lmin l) * 95 / (lmax l - lmin l)); [|lia].
        apply Z.div_le_mono; lia.
Qed.
Lemma rescale_exact : forall v lo hi, In lo v -> In hi v -> (forall x, In x v -> lo <= x <= hi) -> lo < hi ->
  rescale v = Ok (map (fun x => 32 + (x - lo) * 95 / (hi - lo)) v).
Proof.
  intros v lo hi L H B LT. assert (NE : v <> []) by (intros ->; destruct L).
  destruct (lmin_spec v NE) as [M1 M2]. destruct (lmax_spec v NE) as [X1 X2].
  assert (EL : lmin v = lo) by (specialize (M2 lo L); specialize (B _ M1); lia). assert (EH : lmax v = hi) by (specialize (X2 hi H); specialize (B _ X1); lia).
  rewrite rescale_two. 2:{ destruct v as [|a [|b v]]; cbn; try lia; [destruct L|]. destruct L as [<-|[]]; destruct H as [<-|[]]; lia. }
  rewrite EL, EH. destruct (Z.leb_spec (hi - lo) 0); [lia|]. f_equal. apply map_ext_in. intros x Hx. apply rescale_value; [lia|]. specialize (B x Hx). lia.
Qed.
Lemma rescale_same : forall v x, (2 <= List.length v)%nat -> (forall y, In y v -> y = x) -> rescale v = Ok (map (fun _ => 32) v).
Proof.
  intros v x L H. rewrite rescale_two by auto. assert (NE : v <> []) by (intros ->; cbn in L; lia).
  destruct (lmin_spec v NE) as [M1 _]. destruct (lmax_spec v NE) as [X1 _]. rewrite (H _ M1), (H _ X1), Z.sub_diag. reflexivity.
Qed.
Lemma rescale_single : forall x, 0 <= x <= 127 -> exists m, rescale [x] = Ok [m] /\ nearest_even (32 + inject_Z x * (95 # 127))%Q m.
Proof.
  intros x X. cbn [rescale]. set (q := (inject_Z (x * 95) / 127 + 32)%Q).
  assert (E : (q == 32 + inject_Z x * (95 # 127))%Q). { unfold q. rewrite inject_Z_mult. unfold Qdiv. change (/ 127)%Q with (1 # 127). change (inject_Z 95) with 95%Q. ring. }
  pose proof (round_nearest q) as N. set (m := round_half_even q) in *.
  assert (M : 32 <= m <= 127).
  { destruct N as [N1 _]. assert (0 <= inject_Z x)%Q by (rewrite <- (Zle_Qle 0); lia). assert (inject_Z x <= 127)%Q by (change 127%Q with (inject_Z 127); rewrite <- Zle_Qle; lia).
    rewrite E in N1. apply Qabs_Qle_condition in N1. clearbody m. split.
    - apply Z.lt_pred_le. rewrite Zlt_Qlt. change (inject_Z (Z.pred 32)) with 31%Q. lra.
    - apply Z.lt_succ_r. rewrite Zlt_Qlt. change (inject_Z (Z.succ 127)) with 128%Q. lra. }
  exists m. split; [f_equal; f_equal; unfold clip; lia|]. destruct N as [N1 N2]. split; [rewrite <- E; exact N1|]. intros H. apply N2. rewrite E. exact H.
Qed.

(** Feature tensors. *)
Lemma padded_row : forall n l, (List.length l <= n)%nat -> List.length (padded n l) = n /\ (forall i, nth i (padded n l) 0 = nth i l 0).
Proof.
  intros n l H. unfold padded. rewrite app_length, repeat_length. split; [lia|]. intros i. destruct (Nat.lt_ge_cases i (List.length l)) as [L|L].
  - rewrite app_nth1 by auto. reflexivity.
  - rewrite app_nth2 by auto. rewrite (nth_overflow l) by auto. destruct (nth_in_or_default (i - List.length l) (repeat 0 (n - List.length l)) 0) as [I|I]; auto. apply repeat_spec in I. auto.
Qed.
Lemma one_hot_row_spec : forall k p, 0 <= p < k -> List.length (one_hot_row k p) = Z.to_nat k /\ (forall i, nth i (one_hot_row k p) 0 = if Nat.eqb i (Z.to_nat p) then 1 else 0).
Proof.
  intros k p P. unfold one_hot_row. rewrite map_length, seq_length. split; [auto|]. intros i. destruct (Nat.lt_ge_cases i (Z.to_nat k)) as [L|L].
  - rewrite (nth_indep _ 0 ((fun i => if Z.of_nat i =? p then 1 else 0) O)) by (rewrite map_length, seq_length; auto). rewrite (map_nth (fun i => if Z.of_nat i =? p then 1 else 0)), seq_nth by auto. cbn [plus].
    destruct (Z.eqb_spec (Z.of_nat i) p), (Nat.eqb_spec i (Z.to_nat p)); auto; lia.
  - rewrite nth_overflow by (rewrite map_length, seq_length; auto). destruct (Nat.eqb_spec i (Z.to_nat p)); auto; lia.
Qed.
Lemma one_hot_ok : forall k l, (forall p, In p l -> 0 <= p < k) -> one_hot k l = Ok (map (one_hot_row k) l).
Proof.
  intros k l H. unfold one_hot. rewrite (proj2 (forallb_forall _ _)); [reflexivity|]. intros p Hp. specialize (H p Hp). apply andb_true_iff. split; [apply Z.leb_le|apply Z.ltb_lt]; lia.
Qed.
Lemma one_hot_bad : forall k l p, In p l -> ~ 0 <= p < k -> one_hot k l = Err RuntimeError.
Proof.
  intros k l p I P. unfold one_hot. destruct (forallb _ l) eqn:E; [|reflexivity]. rewrite forallb_forall in E. specialize (E p I). apply andb_true_iff in E as [E1 E2]. apply Z.leb_le in E1. apply Z.ltb_lt in E2. lia.
Qed.

(** When building succeeds. *)
Lemma create_ok : forall c chunk v, (forall p, In p chunk -> good_pitch c p) -> 0 < c_size c -> Z.of_nat (List.length chunk) <= c_size c ->
  (match v with Some v => c_velocity c = true /\ List.length v = List.length chunk /\ Forall (fun y => 32 <= y <= 127) v | None => True end) ->
  exists x, create_tensor (c_type c) chunk v (c_size c) 127 = Ok x.
Proof.
  intros c chunk v P SZ L V. unfold create_tensor, good_pitch in *. destruct (c_type c).
  - destruct v as [v|]; [|eauto]. destruct V as [V1 [V2 V3]]. destruct (Nat.ltb_spec (Z.to_nat (c_size c)) (List.length v)); [lia|].
    rewrite (proj2 (forallb_forall (Z.leb 0) (firstn _ chunk))). 2:{ intros p Hp. apply Z.leb_le. apply P; auto. rewrite <- (firstn_skipn (Z.to_nat (c_size c)) chunk). apply in_or_app. auto. }
    rewrite (proj2 (forallb_forall (Z.leb 0) v)). 2:{ intros y Hy. apply Z.leb_le. rewrite Forall_forall in V3. specialize (V3 y Hy). lia. }
    cbn. eauto.
  - rewrite one_hot_ok by auto. cbn [bind]. destruct v as [v|]; [|eauto]. destruct V as [V1 [V2 V3]]. rewrite map_length, V2, Nat.eqb_refl. eauto.
Qed.
Lemma visit_total : forall e c notes st chunk, chunk <> [] -> (forall p, In p chunk -> good_pitch c p) -> 0 < c_size c -> Z.of_nat (List.length chunk) <= c_size c ->
  exists st', visit e c notes st chunk = (Ok tt, st').
Proof.
  intros e c notes [[b g] lst] chunk NE P SZ L. unfold visit. destruct (c_velocity c) eqn:V.
  - destruct (rescale_total (map (top_velocity notes) chunk)) as [w [W1 [W2 [W3 _]]]]; [destruct chunk; [congruence|discriminate]|]. rewrite W1. cbn [bind].
    destruct (create_ok c chunk (Some w) P SZ L) as [x X]; [rewrite W2, map_length; auto|]. rewrite X. eauto.
  - destruct (create_ok c chunk None P SZ L I) as [x X]. rewrite X. eauto.
Qed.
Lemma each_total : forall A T (f : T -> A -> res unit * T) l, (forall t a, In a l -> exists t', f t a = (Ok tt, t')) -> forall t, exists t', each f t l = (Ok tt, t').
Proof.
  intros A T f l. induction l as [|a l IH]; intros H t; cbn; [eauto|]. destruct (H t a (or_introl eq_refl)) as [t' ->]. apply IH. intros. apply H. right. auto.
Qed.
Lemma valid_checks : forall c, valid_config c -> (c_size c <=? 0) || (128 <? c_size c) = false /\ (c_buckets c <=? 0) = false /\ Qltb (c_tolerance c) 0 || Qltb 1 (c_tolerance c) = false.
Proof.
  intros c [S1 [S2 [S3 S4]]]. split; [|split].
  - apply orb_false_iff. split; [apply Z.leb_gt|apply Z.ltb_ge]; lia.
  - apply Z.leb_gt. lia.
  - apply orb_false_iff. split; apply Qltb_ge; auto.
Qed.
Lemma invalid_checks : forall c, ~ valid_config c -> (c_size c <=? 0) || (128 <? c_size c) = true \/ (c_buckets c <=? 0) = true \/ Qltb (c_tolerance c) 0 || Qltb 1 (c_tolerance c) = true.
Proof.
  intros c N. destruct ((c_size c <=? 0) || (128 <? c_size c)) eqn:E1; auto. destruct (c_buckets c <=? 0) eqn:E2; auto. destruct (Qltb (c_tolerance c) 0 || Qltb 1 (c_tolerance c)) eqn:E3; auto.
  exfalso. apply N. apply orb_false_iff in E1 as [A B]. apply orb_false_iff in E3 as [C D]. apply Z.leb_gt in A. apply Z.ltb_ge in B. apply Z.leb_gt in E2. apply Qltb_ge in C. apply Qltb_ge in D.
  split; [lia|]. split; [lia|auto].
Qed.
Lemma build_invalid : forall e b s c g, ~ valid_config c -> build_sequence e b s c g = (Err ValueError, b).
Proof.
  intros e b s c g N. unfold build_sequence. destruct ((c_size c <=? 0) || (128 <? c_size c)) eqn:E1; [reflexivity|]. destruct (c_buckets c <=? 0) eqn:E2; [reflexivity|].
  destruct (invalid_checks c N) as [H|[H|H]]; [congruence|congruence|]. rewrite H. reflexivity.
Qed.
Lemma tol95 : forall s, (0 <= compute_tolerance s 95)%Q.
Proof. intros. apply tolerance_nonneg; lra. Qed.
Lemma build_negative : forall e b s c g n, valid_config c -> In n (q_notes s) -> sounding n -> (n_start n < 0)%Q -> build_sequence e b s c g = (Err AssertionError, b).
Proof.
  intros e b s c g n V I SD NG. destruct (valid_checks c V) as [C1 [C2 C3]]. unfold build_sequence. rewrite C1, C2, C3. unfold compute_data.
  rewrite (proj2 (group_total e (compute_tolerance s 95) true 2 (q_notes s) [] 0 (tol95 s))) by eauto. reflexivity.
Qed.
Lemma groups_notes : forall key f notes gs g n, groups_of key f notes gs -> In g gs -> In n g -> In n notes /\ sounding n.
Proof.
  intros key f notes gs g n [ks [_ [F _]]] I N. assert (H : exists k, In k ks /\ selects (fun n => sounding n /\ key n = k) notes g).
  { clear - F I. induction F as [|k x ks gs [H _] F IH]; [destruct I|]. destruct I as [<-|I]; [exists k; split; [left; auto|auto]|]. destruct (IH I) as [k' [A B]]. exists k'. split; [right; auto|auto]. }
  destruct H as [k [_ H]]. apply selects_members in H. subst g. unfold members in N. apply filter_In in N as [A B]. apply members_iff in B as [B _]. auto.
Qed.
Lemma build_total : forall e b s c g, env_ok e -> valid_config c -> (forall n, In n (q_notes s) -> sounding n -> (0 <= n_start n)%Q /\ good_pitch c (n_pitch n)) ->
  (match g with Some g => g_nodes g <> [] | None => True end) -> exists g' b', build_sequence e b s c g = (Ok g', b').
Proof.
  intros e b s c g EO V N G. pose proof (valid_checks c V) as [C1 [C2 C3]]. unfold build_sequence. rewrite C1, C2, C3.
  destruct (compute_data e s (c_tolerance c) (c_filter c) true 2) as [[data lg]|x] eqn:E.
  - pose proof (compute_groups e s _ _ _ _ E) as GR. cbv zeta in GR. destruct data as [|d data]; [eauto|].
    assert (T : forall st, exists st', each (visit_group e c) st (in_key_order (d :: data)) = (Ok tt, st')).
    { apply each_total. intros st notes Hn. unfold visit_group. apply each_total. intros st1 chunk Hc.
      assert (NN : notes <> []).
      { destruct GR as [ks [_ [F _]]]. clear - F Hn. induction F as [|k x ks gs [_ [H _]] F IH]; [destruct Hn|]. destruct Hn as [<-|Hn]; auto. }
      destruct V as [V1 _]. destruct (split_chord_splits e (c_size c) notes EO ltac:(lia) NN) as [_ [PI [FS _]]]. rewrite Forall_forall in FS. destruct (FS chunk Hc) as [F1 F2].
      apply visit_total; auto; [|lia]. intros p Hp. assert (Ic : In p (List.concat (split_chord e (c_size c) notes))) by (apply in_concat; eauto).
      apply PI in Ic as [n [I1 <-]]. destruct (groups_notes _ _ _ _ _ _ GR Hn I1) as [A B]. apply N; auto. }
    destruct g as [g|].
    + destruct (rev (g_nodes g)) as [|[h a] r] eqn:R; [exfalso; apply G; rewrite <- (rev_involutive (g_nodes g)), R; reflexivity|].
      destruct (T (b, g, Some h)) as [[[b1 g1] l1] ->]. eauto.
    + destruct (T (b, g_empty, None)) as [[[b1 g1] l1] ->]. eauto.
  - exfalso. unfold compute_data in E. destruct (proj1 (group_total e (compute_tolerance s 95) true 2 (q_notes s) [] 0 (tol95 s)) ltac:(intros; apply N; auto)) as [p P]. rewrite P in E. discriminate.
Qed.
(** A sequence whose tolerance, bucket count or graph does not matter. *)
Lemma build_tolerance_irrelevant : forall e b s c g t k, valid_config c -> (0 <= t)%Q -> (t <= 1)%Q -> 1 <= k ->
  build_sequence e b s (mkC (c_size c) k (c_type c) (c_filter c) t (c_velocity c)) g = build_sequence e b s c g.
Proof.
  intros e b s c g t k V T1 T2 K. assert (V' : valid_config (mkC (c_size c) k (c_type c) (c_filter c) t (c_velocity c))) by (destruct V as [V1 _]; repeat split; cbn; auto; lia).
  destruct (valid_checks c V) as [C1 [C2 C3]]. destruct (valid_checks _ V') as [D1 [D2 D3]]. unfold build_sequence. rewrite C1, C2, C3, D1, D2, D3.
  cbn [c_size c_buckets c_type c_filter c_tolerance c_velocity].
  change (compute_data e s t (c_filter c) true 2) with (compute_data e s (c_tolerance c) (c_filter c) true 2). destruct (compute_data _ _ _ _ _ _) as [[[|d data] lg]|x]; reflexivity.
Qed.
