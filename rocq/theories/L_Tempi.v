From Coq Require Import Sorted Permutation Lqa Lia Qround Qpower.
From Verif Require Import PyBase L_Base M_Note L_Note L_Note2 M_NoteExtra M_Events M_Beats M_Tempi S_Tempi.
Open Scope Q_scope.

Lemma fold_total : forall l acc, fold_left Qplus l acc == acc + total l.
Proof.
  induction l as [|x l IH]; intro acc; cbn [fold_left total fold_right].
  - ring.
  - rewrite IH. unfold total. ring.
Qed.
Lemma total_app : forall a b, total (a ++ b) == total a + total b.
Proof. unfold total. induction a as [|x a IH]; intro b; cbn [app fold_right]; [ring|]. rewrite IH. ring. Qed.
Lemma total_perm : forall a b, Permutation a b -> total a == total b.
Proof. unfold total. induction 1; cbn [fold_right]; lra. Qed.
Lemma total_scale : forall A (f : A -> Q) k l, total (map (fun c => f c * k) l) == total (map f l) * k.
Proof. unfold total. induction l as [|x l IH]; cbn [map fold_right]; [ring|]. rewrite IH. ring. Qed.
Lemma total_ext : forall A (f g : A -> Q) l, (forall c, In c l -> f c == g c) -> total (map f l) == total (map g l).
Proof.
  induction l as [|x l IH]; intro H; cbn [map total fold_right]; [reflexivity|]. unfold total in *.
  rewrite IH by (intros; apply H; right; auto). rewrite (H x) by (left; auto). reflexivity.
Qed.

Lemma gaps_diff : forall l, np_diff l = gaps l.
Proof.
  induction l as [|a [|b l] IH]; auto. change (np_diff (a :: b :: l)) with ((b - a) :: np_diff (b :: l)). rewrite IH. reflexivity.
Qed.
Lemma usable_in : forall l x, In x (usable l) <-> In x l /\ rhythmic x.
Proof.
  intros l x. unfold usable, rhythmic. rewrite !filter_In, !Qltb_lt. tauto.
Qed.
Lemma two_pow : forall k, 0 < 2 ^ (Z.of_nat k).
Proof. intro k. apply Qpower_0_lt. reflexivity. Qed.
Lemma pow_S : forall k, 2 ^ (Z.of_nat (S k)) == 2 * 2 ^ (Z.of_nat k).
Proof. intro k. rewrite Nat2Z.inj_succ. unfold Z.succ. rewrite Qpower_plus by discriminate. change (2 ^ 1) with 2. ring. Qed.
Lemma fold_ioi_folded : forall fuel x, (1 # 5) <= x * 2 ^ (Z.of_nat fuel) -> folded x (fold_ioi fuel x).
Proof.
  induction fuel as [|f IH]; intros x H.
  - exists O. cbn [fold_ioi]. change (2 ^ Z.of_nat 0) with 1 in *. qcase (Qltb x (1 # 5)); [lra|].
    split; [ring|]. split; [lra|]. intros; lia.
  - cbn [fold_ioi]. qcase (Qltb x (1 # 5)).
    + destruct (IH (x * 2)) as [k [A [B C]]]. { rewrite pow_S in H. lra. }
      exists (S k). split; [rewrite A, pow_S; ring|]. split; auto.
      intros [|j] Hj; [change (2 ^ Z.of_nat 0) with 1; lra|]. rewrite pow_S. specialize (C j ltac:(lia)). lra.
    + exists O. change (2 ^ Z.of_nat 0) with 1. split; [ring|]. split; [lra|]. intros; lia.
Qed.
Lemma folded_range : forall g r, rhythmic g -> folded g r -> 1 # 5 <= r /\ r < 2.
Proof.
  intros g r [G1 G2] [k [A [B C]]]. split; auto. destruct k as [|k].
  - change (2 ^ Z.of_nat 0) with 1 in A. lra.
  - specialize (C k ltac:(lia)). rewrite pow_S in A. lra.
Qed.
Lemma fold3 : forall g, rhythmic g -> folded g (fold_ioi 3 g).
Proof. intros g [G1 G2]. apply fold_ioi_folded. change (2 ^ Z.of_nat 3) with 8. lra. Qed.

(** Clusters. *)
Lemma argmin_from_bound : forall l b m i, (b < i)%nat -> (argmin_from b m i l < i + List.length l)%nat.
Proof.
  induction l as [|x l IH]; intros b m i H; cbn [argmin_from List.length]; [lia|].
  destruct (Qltb x m); [specialize (IH i x (S i) ltac:(lia))|specialize (IH b m (S i) ltac:(lia))]; lia.
Qed.
Lemma argmin_bound : forall l, l <> [] -> (argmin l < List.length l)%nat.
Proof. intros [|x l] H; [congruence|]. unfold argmin. pose proof (argmin_from_bound l 0 x 1 ltac:(lia)). cbn [List.length]. lia. Qed.
Lemma update_total : forall A (f : A -> A) (w : A -> Q) (d : Q) l k, (k < List.length l)%nat ->
  (forall c, In c l -> w (f c) == w c + d) -> total (map w (update_at k f l)) == total (map w l) + d.
Proof.
  induction l as [|x l IH]; intros k Hk H; cbn [List.length] in Hk; [lia|]. destruct k as [|k]; cbn [update_at map total fold_right].
  - rewrite H by (left; auto). unfold total. ring.
  - unfold total in *. rewrite IH; [ring|lia|]. intros; apply H; right; auto.
Qed.
Lemma update_forall : forall A (f : A -> A) (P : A -> Prop) l k, Forall P l -> (forall c, P c -> P (f c)) -> Forall P (update_at k f l).
Proof.
  induction l as [|x l IH]; intros k F H; destruct k; cbn [update_at]; inversion F; subst; auto.
Qed.
Lemma update_length : forall A (f : A -> A) l k, List.length (update_at k f l) = List.length l.
Proof. induction l as [|x l IH]; intros k; destruct k; cbn [update_at List.length]; auto. Qed.

Definition okc (c : Q * Q) : Prop := (1 # 5 <= fst c /\ fst c < 2) /\ 1 <= snd c.
Definition count (cl : list (Q * Q)) : Q := total (map snd cl).
Definition mass (cl : list (Q * Q)) : Q := total (map (fun c => snd c * fst c) cl).
Lemma mean_range : forall m c x, 1 # 5 <= m < 2 -> 1 <= c -> 1 # 5 <= x < 2 -> 1 # 5 <= (c * m + x) / (c + 1) < 2.
Proof.
  intros m c x [M1 M2] C [X1 X2]. split.
  - apply Qle_shift_div_l; [lra|]. nra.
  - apply Qlt_shift_div_r; [lra|]. nra.
Qed.
Lemma add_inv : forall cl x, Forall okc cl -> 1 # 5 <= x < 2 ->
  Forall okc (add_interval cl x) /\ count (add_interval cl x) == count cl + 1 /\ mass (add_interval cl x) == mass cl + x /\ add_interval cl x <> [].
Proof.
  intros cl x F X. unfold add_interval. destruct (existsb _ cl) eqn:E.
  - assert (N : cl <> []) by (intros ->; discriminate).
    assert (B : (argmin (map (fun c => (fst c - x)%Q) cl) < List.length cl)%nat).
    { rewrite <- (map_length (fun c => fst c - x) cl). apply argmin_bound. destruct cl; [congruence|discriminate]. }
    assert (Fc : forall c, In c cl -> okc c) by (intros; eapply Forall_forall; eauto).
    split; [|split; [|split]].
    + apply update_forall; auto. intros c [C1 C2]. split; cbn [fst snd].
      * apply mean_range; auto.
      * lra.
    + unfold count. apply update_total; auto. intros. cbn [snd]. reflexivity.
    + unfold mass. apply update_total; auto. intros c Hc. cbn [fst snd]. destruct (Fc c Hc) as [_ C]. field. lra.
    + intro K. apply (f_equal (@List.length _)) in K. rewrite update_length in K. destruct cl; [congruence|discriminate].
  - split; [|split; [|split]].
    + apply Forall_app. split; auto. constructor; [|constructor]. split; cbn [fst snd]; [auto|lra].
    + unfold count. rewrite map_app, total_app. cbn [map total fold_right snd]. ring.
    + unfold mass. rewrite map_app, total_app. cbn [map total fold_right fst snd]. ring.
    + destruct cl; discriminate.
Qed.
Lemma adds_inv : forall l cl, Forall okc cl -> (forall x, In x l -> 1 # 5 <= x < 2) ->
  Forall okc (fold_left add_interval l cl) /\ count (fold_left add_interval l cl) == count cl + inject_Z (Z.of_nat (List.length l)) /\
  mass (fold_left add_interval l cl) == mass cl + total l /\ (l <> [] \/ cl <> [] -> fold_left add_interval l cl <> []).
Proof.
  induction l as [|x l IH]; intros cl F H; cbn [fold_left].
  - split; auto. split; [cbn; change (inject_Z 0) with 0; ring|]. split; [cbn [total fold_right]; ring|]. intros [K|K]; [congruence|auto].
  - destruct (add_inv cl x F) as [A [B [C D]]]; [apply H; left; auto|].
    destruct (IH (add_interval cl x) A) as [A2 [B2 [C2 D2]]]. { intros; apply H; right; auto. }
    split; auto. split; [|split].
    + rewrite B2, B. cbn [List.length]. rewrite Nat2Z.inj_succ. unfold Z.succ. rewrite inject_Z_plus. change (inject_Z 1) with 1. ring.
    + rewrite C2, C. cbn [total fold_right]. unfold total. ring.
    + intros _. apply D2. right. auto.
Qed.

Lemma map_nth_seq : forall A (d : A) l, map (fun i => nth i l d) (seq 0 (List.length l)) = l.
Proof.
  intros A d. induction l as [|x l IH]; [reflexivity|].
  cbn [List.length seq map nth]. f_equal. rewrite <- seq_shift, map_map. exact IH.
Qed.
Lemma sorted_rev : forall A (R : A -> A -> Prop) l, StronglySorted R l -> StronglySorted (fun a b => R b a) (rev l).
Proof.
  induction l as [|x l IH]; intro H; cbn [rev]; [constructor|]. inversion H as [|? ? H1 H2]; subst.
  specialize (IH H1). revert H2 IH. generalize (rev l) (in_rev l). intros r HR H2 IH.
  assert (H3 : forall y, In y r -> R x y) by (intros y Hy; eapply Forall_forall; [exact H2|]; apply HR; auto).
  clear HR H2 H H1. induction r as [|y r IHr]; cbn [app]; [constructor; constructor|].
  inversion IH as [|? ? I1 I2]; subst. constructor; [apply IHr; auto; intros; apply H3; right; auto|].
  apply Forall_app. split; auto. constructor; [apply H3; left; auto|constructor].
Qed.
Lemma sorted_map : forall A B (f : A -> B) (R : B -> B -> Prop) l, StronglySorted (fun a b => R (f a) (f b)) l -> StronglySorted R (map f l).
Proof. induction l as [|x l IH]; intro H; cbn [map]; [constructor|]. inversion H; subst. constructor; auto. apply Forall_map. auto. Qed.

Section est.
Variables (srt : list Q -> list nat) (onsets : list Q).
Hypothesis HS : argsorts srt.
Let ivs := map (fold_ioi 3) (usable (np_diff onsets)).
Let cl := fold_left add_interval ivs [].
Let cl' := map (fun i => nth i cl (0, 0)) (rev (srt (map snd cl))).
Lemma ivs_range : forall x, In x ivs -> 1 # 5 <= x < 2.
Proof.
  intros x H. subst ivs. apply in_map_iff in H. destruct H as [g [<- H]]. apply usable_in in H. destruct H as [_ H].
  apply (folded_range g); auto. apply fold3; auto.
Qed.
Lemma cl_perm : Permutation cl' cl.
Proof.
  subst cl'. destruct (HS (map snd cl)) as [P _]. rewrite map_length in P.
  rewrite <- (map_nth_seq _ (0, 0) cl) at 2. apply Permutation_map. rewrite <- P. symmetry. apply Permutation_rev.
Qed.
Lemma cl_sorted : StronglySorted (fun a b => snd b <= snd a) cl'.
Proof.
  subst cl'. destruct (HS (map snd cl)) as [_ S]. apply sorted_map. apply sorted_rev in S.
  eapply StronglySorted_ind with (P := fun l => StronglySorted (fun a b => snd (nth b cl (0, 0)) <= snd (nth a cl (0, 0))) l); try exact S.
  - constructor.
  - intros a l _ IH F. constructor; auto. eapply Forall_impl; [|exact F]. cbn beta. intros b K.
    change 0 with (snd (0, 0)) in K. rewrite !map_nth in K. exact K.
Qed.
Lemma cl_facts : Forall okc cl' /\ total (map snd cl') == inject_Z (Z.of_nat (List.length ivs)) /\
  total (map (fun c => snd c * fst c) cl') == total ivs /\ (cl' = [] <-> ivs = []).
Proof.
  destruct (adds_inv ivs [] (Forall_nil _)) as [A [B [C D]]]; [apply ivs_range|]. fold cl in A, B, C, D.
  pose proof cl_perm as P. split; [|split; [|split]].
  - apply Forall_forall. intros c Hc. eapply Forall_forall; [exact A|]. eapply Permutation_in; eauto.
  - rewrite (total_perm _ (map snd cl)) by (apply Permutation_map; auto). unfold count in B. rewrite B. cbn [map total fold_right]. ring.
  - rewrite (total_perm _ (map (fun c => snd c * fst c) cl)) by (apply Permutation_map; auto). unfold mass in C. rewrite C. cbn [map total fold_right]. ring.
  - split; intro K.
    + rewrite K in P. apply Permutation_nil in P. destruct ivs as [|x r] eqn:E; auto. exfalso. apply D; [left; discriminate|auto].
    + assert (E : cl = []) by (subst cl; rewrite K; reflexivity). rewrite E in P. apply Permutation_sym, Permutation_nil in P. auto.
Qed.
Lemma ivs_nil : ivs = [] <-> forall g, In g (gaps onsets) -> ~ rhythmic g.
Proof.
  subst ivs. rewrite gaps_diff. split.
  - intros H g Hg R. apply map_eq_nil in H. assert (K : In g (usable (gaps onsets))) by (apply usable_in; auto). rewrite H in K. destruct K.
  - intro H. destruct (usable (gaps onsets)) as [|g r] eqn:E; auto. exfalso.
    assert (K : In g (usable (gaps onsets))) by (rewrite E; left; auto). apply usable_in in K. destruct K as [K1 K2]. apply (H g); auto.
Qed.
Lemma tempi_facts : forall t p, estimate_tempi srt onsets = (t, p) ->
  List.length t = List.length p /\ (forall x, In x t -> 30 < x <= 300) /\ (forall x, In x p -> 0 < x <= 1) /\
  StronglySorted (fun a b => b <= a) p /\ (t <> [] -> total p == 1) /\
  (t = [] <-> forall g, In g (gaps onsets) -> ~ rhythmic g).
Proof.
  intros t p H. unfold estimate_tempi in H. cbv zeta in H. fold ivs in H. fold cl in H. fold cl' in H.
  destruct cl_facts as [A [B [C D]]].
  assert (T : fold_left Qplus (map snd cl') 0 == total (map snd cl')) by (rewrite fold_total; ring).
  remember (fold_left Qplus (map snd cl') 0) as tot eqn:ET. clear ET. injection H as <- <-.
  assert (OK : forall c, In c cl' -> okc c) by (apply Forall_forall; auto).
  assert (LE : forall c l, In c l -> (forall c, In c l -> okc c) -> snd c <= total (map snd l)).
  { intros c l. induction l as [|y l IH]; intros H1 H2; [destruct H1|]. cbn [map total fold_right].
    assert (N : 0 <= total (map snd l)).
    { clear -H2. induction l as [|z l IH]; [cbn; lra|]. cbn [map total fold_right].
      destruct (H2 z) as [_ K]; [right; left; auto|]. assert (0 <= total (map snd l)) by (apply IH; intros; apply H2; destruct H as [H|H]; [left; auto|right; right; auto]).
      unfold total in *. lra. }
    destruct (H2 y) as [_ K]; [left; auto|]. destruct H1 as [->|H1].
    - unfold total in *. lra.
    - specialize (IH H1 (fun c h => H2 c (or_intror h))). unfold total in *. lra. }
  split; [rewrite !map_length; reflexivity|].
  split.
  { intros x Hx. apply in_map_iff in Hx. destruct Hx as [c [<- Hc]]. destruct (OK c Hc) as [[K1 K2] _]. split.
    - apply Qlt_shift_div_l; lra.
    - apply Qle_shift_div_r; lra. }
  assert (POS : forall c, In c cl' -> 0 < tot).
  { intros c Hc. pose proof (LE c cl' Hc OK). destruct (OK c Hc) as [_ K]. lra. }
  split.
  { intros x Hx. apply in_map_iff in Hx. destruct Hx as [c [<- Hc]]. destruct (OK c Hc) as [_ K]. pose proof (POS c Hc). pose proof (LE c cl' Hc OK). split.
    - apply Qlt_shift_div_l; lra.
    - apply Qle_shift_div_r; lra. }
  split.
  { apply sorted_map. pose proof cl_sorted as S.
    assert (G : forall l : list (Q * Q), (forall c, In c l -> 0 < tot) -> StronglySorted (fun a b => snd b <= snd a) l -> StronglySorted (fun a b => snd b / tot <= snd a / tot) l).
    { intros l HL. induction 1; constructor; auto.
      - apply IHStronglySorted. intros; eapply HL; right; eauto.
      - eapply Forall_impl; [|eassumption]. intros b K. apply Qmult_le_compat_r; auto. apply Qlt_le_weak, Qinv_lt_0_compat. eapply HL; left; eauto. }
    apply G; auto. }
  split.
  { intro N. rewrite (total_ext _ (fun c => snd c / tot) (fun c => snd c * / tot)) by (intros; reflexivity).
    rewrite total_scale. rewrite <- T. destruct cl' as [|c r] eqn:E; [exfalso; apply N; reflexivity|].
    pose proof (POS c (or_introl eq_refl)). apply Qmult_inv_r. lra. }
  rewrite <- ivs_nil, <- D. split; intro K; [apply map_eq_nil in K; auto|rewrite K; reflexivity].
Qed.
Lemma tempi_mean : forall t p, estimate_tempi srt onsets = (t, p) ->
  total (map (fun c => snd c * (60 / fst c)) (combine t p)) * inject_Z (Z.of_nat (List.length ivs)) == total ivs.
Proof.
  intros t p H. unfold estimate_tempi in H. cbv zeta in H. fold ivs in H. fold cl in H. fold cl' in H.
  destruct cl_facts as [A [B [C D]]].
  assert (T : fold_left Qplus (map snd cl') 0 == total (map snd cl')) by (rewrite fold_total; ring).
  remember (fold_left Qplus (map snd cl') 0) as tot eqn:ET. clear ET. injection H as <- <-.
  rewrite <- B, <- C, <- T. clear D B C. revert A T. generalize cl'. intros l A T.
  destruct (Qeq_dec tot 0) as [Z|NZ].
  - destruct l as [|c l]; [cbn [map combine total fold_right]; rewrite Z; ring|].
    exfalso. assert (N : forall l, Forall okc l -> 0 <= total (map snd l)).
    { clear. induction 1 as [|c l [_ K] F IH]; cbn [map total fold_right]; [lra|]. unfold total in *. lra. }
    inversion A as [|? ? [_ K] F]; subst. specialize (N l F). cbn [map total fold_right] in T. unfold total in *. lra.
  - clear T. induction l as [|c l IH]; cbn [map combine total fold_right fst snd]; [ring|].
    inversion A as [|? ? [[K1 K2] _] F]; subst. specialize (IH F). unfold total in *.
    rewrite Qmult_plus_distr_l, IH. field. split; auto. intro E. lra.
Qed.
End est.
