From Coq Require Import Lia Sorted Permutation Arith.
From Verif Require Import PyBase L_Base M_Load S_Load L_Load L_Load2.
Open Scope Z_scope.

(** ** the controllers *)
Lemma upd_nth_get : forall A (l : list A) n f m, nth_error (upd_nth l n f) m =
  if Nat.eqb m n then option_map f (nth_error l n) else nth_error l m.
Proof.
  intros A l n f m. unfold upd_nth. destruct (nth_error l n) as [x|] eqn:E.
  - apply nth_error_split in E as [l1 [l2 [-> <-]]].
    assert (firstn (List.length l1) (l1 ++ x :: l2) = l1) as -> by (rewrite firstn_app, Nat.sub_diag, firstn_all; simpl; apply app_nil_r).
    assert (skipn (S (List.length l1)) (l1 ++ x :: l2) = l2) as ->.
    { change (x :: l2) with ([x] ++ l2). rewrite app_assoc. replace (S (List.length l1)) with (List.length (l1 ++ [x])) by (rewrite app_length; simpl; lia).
      rewrite skipn_app, skipn_all, Nat.sub_diag. reflexivity. }
    destruct (Nat.eqb_spec m (List.length l1)) as [->|Ne].
    + rewrite nth_error_app2, Nat.sub_diag by lia. reflexivity.
    + destruct (lt_dec m (List.length l1)); [rewrite !nth_error_app1 by lia; reflexivity|]. rewrite !nth_error_app2 by lia.
      destruct (m - List.length l1)%nat eqn:D; [lia|]. reflexivity.
  - destruct (Nat.eqb_spec m n) as [->|]; auto.
Qed.
Lemma upd_nth_len : forall A (l : list A) n f, List.length (upd_nth l n f) = List.length l.
Proof.
  intros. unfold upd_nth. destruct (nth_error l n) as [x|] eqn:E; auto. apply nth_error_split in E as [l1 [l2 [-> <-]]].
  rewrite app_length, firstn_length. cbn [List.length]. rewrite skipn_length, !app_length. cbn [List.length]. lia.
Qed.

Definition own_inv (own : nat -> Z * Z) (s : lstate) : Prop :=
  (forall p c t i, In ((p, c, t), i) (l_insts s) -> own (pi_cell i) = (c, t) /\ (pi_cell i < List.length (l_cells s))%nat) /\
  (forall k x, In (k, x) (l_strag s) -> own x = k /\ (x < List.length (l_cells s))%nat).
Definition good (s : lstate) : Prop := exists own, own_inv own s.

Section Fixed.
Variables ch tr : Z.
Definition P0 (s : lstate) : Prop := assoc pair_eqb (ch, tr) (l_strag s) = None /\ forall p i, ~ In ((p, ch, tr), i) (l_insts s).
Definition PS (c : cell) (s : lstate) : Prop := exists c0, assoc pair_eqb (ch, tr) (l_strag s) = Some c0 /\ nth_error (l_cells s) c0 = Some c /\
  forall p i, In ((p, ch, tr), i) (l_insts s) -> pi_cell i = c0.
Definition P1 (p : Z) (c : cell) (s : lstate) : Prop := assoc pair_eqb (ch, tr) (l_strag s) = None /\ exists i, inst_of s (p, ch, tr) = Some i /\
  nth_error (l_cells s) (pi_cell i) = Some c /\ forall p' i', In ((p', ch, tr), i') (l_insts s) -> p' = p /\ pi_cell i' = pi_cell i.

(** [same s s']: keys, cells of [s'] look, for (ch, tr), like those of [s] *)
Definition same (s s' : lstate) : Prop :=
  assoc pair_eqb (ch, tr) (l_strag s') = assoc pair_eqb (ch, tr) (l_strag s) /\
  (forall p i', In ((p, ch, tr), i') (l_insts s') -> exists i, In ((p, ch, tr), i) (l_insts s) /\ pi_cell i' = pi_cell i) /\
  (forall p i, inst_of s (p, ch, tr) = Some i -> exists i', inst_of s' (p, ch, tr) = Some i' /\ pi_cell i' = pi_cell i) /\
  (forall c, (forall own, own_inv own s -> own c = (ch, tr)) -> (c < List.length (l_cells s))%nat -> nth_error (l_cells s') c = nth_error (l_cells s) c).
Lemma same_refl : forall s, same s s.
Proof. intros s. split; [auto|]. split; [eauto|]. split; [eauto|auto]. Qed.
Lemma same_P0 : forall s s', same s s' -> P0 s -> P0 s'.
Proof. intros s s' [A [B _]] [H1 H2]. split; [congruence|]. intros p i Hi. destruct (B p i Hi) as [j [J _]]. exact (H2 p j J). Qed.
Lemma same_PS : forall s s' c, good s -> same s s' -> PS c s -> PS c s'.
Proof.
  intros s s' c G [A [B [C D]]] [c0 [H1 [H2 H3]]]. exists c0. split; [congruence|]. split.
  - rewrite D; auto.
    + intros own O. apply assoc_In in H1; [|apply pair_eqb_spec]. apply O in H1. tauto.
    + apply nth_error_Some. congruence.
  - intros p i Hi. destruct (B p i Hi) as [j [J1 J2]]. rewrite J2. eauto.
Qed.
Lemma inst_In : forall s k i, inst_of s k = Some i -> In (k, i) (l_insts s).
Proof. intros s k i H. apply (assoc_In _ _ ikey_eqb); auto. apply ikey_eqb_spec. Qed.
Lemma same_P1 : forall s s' p c, good s -> same s s' -> P1 p c s -> P1 p c s'.
Proof.
  intros s s' p c G [A [B [C D]]] [H1 [i [H2 [H3 H4]]]]. split; [congruence|]. destruct (C p i H2) as [i' [I1 I2]]. exists i'. split; auto. split.
  - rewrite I2, D; auto.
    + intros own O. apply inst_In in H2. apply O in H2. tauto.
    + apply nth_error_Some. congruence.
  - intros p' j Hj. destruct (B p' j Hj) as [k [K1 K2]]. destruct (H4 p' k K1). split; auto. congruence.
Qed.
End Fixed.

Lemma append_In : forall s k n k' i', In (k', i') (l_insts (append_note s k n)) -> exists i, In (k', i) (l_insts s) /\ pi_cell i' = pi_cell i.
Proof.
  intros s k n k' i' H. unfold append_note in H; simpl in H. apply in_map_iff in H as [[k0 i] [E H]]. simpl in E.
  destruct (ikey_eqb k0 k); injection E as <- <-; exists i; auto.
Qed.
Lemma append_same : forall ch tr s k n, same ch tr s (append_note s k n).
Proof.
  intros. split; [reflexivity|]. split; [|split; [|reflexivity]].
  - intros p i' H. apply append_In in H. auto.
  - intros p i H. rewrite inst_append, H. destruct (ikey_eqb _ _); simpl; eauto.
Qed.
Lemma append_good : forall s k n, good s -> good (append_note s k n).
Proof.
  intros s k n [own [A B]]. exists own. split.
  - intros p c t i H. apply append_In in H as [j [J1 J2]]. rewrite J2. apply (A p c t j J1).
  - exact B.
Qed.
(** a fresh cell *)
Definition own_fresh (own : nat -> Z * Z) (n : nat) (k : Z * Z) : nat -> Z * Z := fun m => if Nat.eqb m n then k else own m.
Lemma get_new_good : forall dc s pr c t, good s -> good (get_new dc s pr c t).
Proof.
  intros dc s pr c t [own [A B]]. unfold get_new. destruct (assoc ikey_eqb (pr, c, t) (l_insts s)); [exists own; split; auto|].
  destruct (assoc pair_eqb (c, t) (l_strag s)) as [c0|] eqn:E.
  - exists own. split; [|exact B]. intros p c' t' i H. simpl in *. apply in_app_iff in H as [H|[H|[]]]; [eauto|]. injection H as <- <- <- <-. simpl.
    apply B. apply assoc_In in E; auto. apply pair_eqb_spec.
  - exists (own_fresh own (List.length (l_cells s)) (c, t)). split; simpl; rewrite app_length; simpl.
    + intros p c' t' i H. apply in_app_iff in H as [H|[H|[]]].
      * destruct (A _ _ _ _ H) as [A1 A2]. unfold own_fresh. destruct (Nat.eqb_spec (pi_cell i) (List.length (l_cells s))); [lia|]. split; [auto|lia].
      * injection H as <- <- <- <-. simpl. unfold own_fresh. rewrite Nat.eqb_refl. split; [auto|lia].
    + intros k x H. destruct (B k x H) as [B1 B2]. unfold own_fresh. destruct (Nat.eqb_spec x (List.length (l_cells s))); [lia|]. split; [auto|lia].
Qed.
Lemma get_new_same : forall dc s pr c t ch tr, (c, t) <> (ch, tr) -> same ch tr s (get_new dc s pr c t).
Proof.
  intros dc s pr c t ch tr Ne. assert (I : forall p i, inst_of s (p, ch, tr) = Some i -> exists i', inst_of (get_new dc s pr c t) (p, ch, tr) = Some i' /\ pi_cell i' = pi_cell i).
  { intros p i H. rewrite inst_get_new, H. eauto. }
  unfold get_new in *. destruct (assoc ikey_eqb (pr, c, t) (l_insts s)); [apply same_refl|].
  destruct (assoc pair_eqb (c, t) (l_strag s)) as [c0|] eqn:E; (split; [reflexivity|]; split; [|split; [exact I|]]); simpl.
  - intros p i' H. apply in_app_iff in H as [H|[H|[]]]; [eauto|]. injection H as _ -> -> _. congruence.
  - auto.
  - intros p i' H. apply in_app_iff in H as [H|[H|[]]]; [eauto|]. injection H as _ -> -> _. congruence.
  - intros c1 _ L. apply nth_error_app1. auto.
Qed.
Lemma get_cell_good : forall s pr c t, good s -> good (fst (get_cell s pr c t)) /\
  (snd (get_cell s pr c t) < List.length (l_cells (fst (get_cell s pr c t))))%nat /\
  (forall own, own_inv own (fst (get_cell s pr c t)) -> own (snd (get_cell s pr c t)) = (c, t)).
Proof.
  intros s pr c t [own [A B]]. unfold get_cell. destruct (assoc ikey_eqb (pr, c, t) (l_insts s)) as [i|] eqn:Ei.
  { apply assoc_In in Ei; [|apply ikey_eqb_spec]. split; [exists own; split; auto|]. split; [apply (A _ _ _ _ Ei)|]. intros own' O. apply (proj1 O _ _ _ _ Ei). }
  destruct (assoc pair_eqb (c, t) (l_strag s)) as [c0|] eqn:Es.
  { apply assoc_In in Es; [|apply pair_eqb_spec]. split; [exists own; split; auto|]. split; [apply (B _ _ Es)|]. intros own' O. apply (proj2 O _ _ Es). }
  simpl. split; [|split; [rewrite app_length; simpl; lia|]].
  - exists (own_fresh own (List.length (l_cells s)) (c, t)). split; simpl; rewrite app_length; simpl.
    + intros p c' t' i H. destruct (A _ _ _ _ H) as [A1 A2]. unfold own_fresh. destruct (Nat.eqb_spec (pi_cell i) (List.length (l_cells s))); [lia|]. split; [auto|lia].
    + intros k x H. apply in_app_iff in H as [H|[H|[]]].
      * destruct (B k x H) as [B1 B2]. unfold own_fresh. destruct (Nat.eqb_spec x (List.length (l_cells s))); [lia|]. split; [auto|lia].
      * injection H as <- <-. unfold own_fresh. rewrite Nat.eqb_refl. split; [auto|lia].
  - intros own' [_ O]. apply (O (c, t)). simpl. apply in_or_app. right; left; auto.
Qed.
Lemma in_cell_good : forall s c f, good s -> good (in_cell s c f).
Proof. intros s c f [own [A B]]. exists own. split; simpl; rewrite upd_nth_len; auto. Qed.
Lemma assoc_strag_app : forall (l : list ((Z * Z) * nat)) k k' v, k' <> k -> assoc pair_eqb k (l ++ [(k', v)]) = assoc pair_eqb k l.
Proof.
  intros. rewrite assoc_app, assoc_cons. destruct (pair_eqb_spec k' k); [congruence|]. destruct (assoc pair_eqb k l); reflexivity.
Qed.
Lemma get_cell_same : forall s pr c t ch tr, (c, t) <> (ch, tr) -> same ch tr s (fst (get_cell s pr c t)).
Proof.
  intros s pr c t ch tr Ne. unfold get_cell. destruct (assoc ikey_eqb (pr, c, t) (l_insts s)); [apply same_refl|].
  destruct (assoc pair_eqb (c, t) (l_strag s)); [apply same_refl|]. split; [apply assoc_strag_app; auto|]. split; [simpl; eauto|]. split; [eauto|].
  simpl. intros c1 _ L. apply nth_error_app1. auto.
Qed.
Lemma in_cell_same : forall s c f ch tr k, good s -> (forall own, own_inv own s -> own c = k) -> k <> (ch, tr) -> same ch tr s (in_cell s c f).
Proof.
  intros s c f ch tr k [own G] H Ne. split; [reflexivity|]. split; [simpl; eauto|]. split; [eauto|]. simpl.
  intros c1 Hc L. rewrite upd_nth_get. destruct (Nat.eqb_spec c1 c) as [->|]; auto. exfalso. apply Ne. rewrite <- (H own G), <- (Hc own G). reflexivity.
Qed.
Lemma same_trans_good : forall ch tr s1 s2 c p, good s1 -> good s2 -> same ch tr s1 s2 ->
  (P0 ch tr s1 -> P0 ch tr s2) /\ (PS ch tr c s1 -> PS ch tr c s2) /\ (P1 ch tr p c s1 -> P1 ch tr p c s2).
Proof. intros. split; [apply same_P0; auto|]. split; [apply same_PS; auto|apply same_P1; auto]. Qed.

(** own channel *)
Lemma get_new_PS : forall dc s pr ch tr c, PS ch tr c s -> PS ch tr c (get_new dc s pr ch tr).
Proof.
  intros dc s pr ch tr c H. unfold get_new. destruct (assoc ikey_eqb (pr, ch, tr) (l_insts s)); auto. destruct H as [c0 [H1 [H2 H3]]]. rewrite H1.
  exists c0. split; [auto|]. split; [auto|]. simpl. intros p i Hi. apply in_app_iff in Hi as [Hi|[Hi|[]]]; [eauto|]. injection Hi as <- <-. reflexivity.
Qed.
Lemma get_new_P0 : forall dc s pr ch tr, P0 ch tr s -> P1 ch tr pr (mkC [] []) (get_new dc s pr ch tr).
Proof.
  intros dc s pr ch tr [H1 H2]. assert (inst_of s (pr, ch, tr) = None) as N.
  { destruct (inst_of s (pr, ch, tr)) eqn:E; auto. apply inst_In in E. exfalso. exact (H2 _ _ E). }
  pose proof (inst_get_new dc s pr ch tr (pr, ch, tr)) as G. rewrite N in G. destruct (ikey_eqb_spec (pr, ch, tr) (pr, ch, tr)); [|congruence]. rewrite H1 in G.
  unfold get_new in *. unfold inst_of in N. rewrite N, H1 in *. split; [auto|]. eexists. split; [exact G|]. simpl. split.
  - rewrite nth_error_app2, Nat.sub_diag by lia. reflexivity.
  - intros p i Hi. apply in_app_iff in Hi as [Hi|[Hi|[]]]; [exfalso; eapply H2; eauto|]. injection Hi as <- <-. auto.
Qed.
Lemma get_new_P1 : forall dc s pr ch tr c, P1 ch tr pr c s -> get_new dc s pr ch tr = s.
Proof. intros dc s pr ch tr c [_ [i [H _]]]. unfold get_new. unfold inst_of in H. rewrite H. reflexivity. Qed.

Definition Phase (ch tr p : Z) (c : cell) (s : lstate) : Prop := (P0 ch tr s /\ c = mkC [] []) \/ P1 ch tr p c s \/ PS ch tr c s.
Lemma emit_good : forall dc s prog t c n, good s -> good (emit dc s prog t c n).
Proof. intros. apply append_good, get_new_good. auto. Qed.
Lemma emit_other : forall dc s prog t c n ch tr, good s -> (c, t) <> (ch, tr) ->
  (P0 ch tr s -> P0 ch tr (emit dc s prog t c n)) /\ (forall x, PS ch tr x s -> PS ch tr x (emit dc s prog t c n)) /\
  (forall p x, P1 ch tr p x s -> P1 ch tr p x (emit dc s prog t c n)).
Proof.
  intros dc s prog t c n ch tr G Ne. unfold emit. assert (G1 := get_new_good dc s (prog c) c t G). assert (S1 := get_new_same dc s (prog c) c t ch tr Ne).
  assert (S2 := append_same ch tr (get_new dc s (prog c) c t) (prog c, c, t) n).
  split; [|split]; intros.
  - eapply same_P0; [exact S2|]. eapply same_P0; eauto.
  - eapply same_PS; [|exact S2|]; auto. apply (same_PS ch tr _ _ _ G S1). auto.
  - eapply same_P1; [|exact S2|]; auto. apply (same_P1 ch tr _ _ _ _ G S1). auto.
Qed.
Lemma emit_PS : forall dc s prog t c n ch tr x, good s -> PS ch tr x s -> PS ch tr x (emit dc s prog t c n).
Proof.
  intros dc s prog t c n ch tr x G H. destruct (pair_eqb_spec (c, t) (ch, tr)) as [E|Ne]; [|apply emit_other; auto]. injection E as -> ->.
  unfold emit. eapply same_PS; [|apply append_same|]; [apply get_new_good; auto|]. apply get_new_PS. auto.
Qed.
Lemma emit_Phase : forall dc s prog t c n ch tr x, good s -> Phase ch tr (prog ch) x s -> Phase ch tr (prog ch) x (emit dc s prog t c n).
Proof.
  intros dc s prog t c n ch tr x G H. destruct (pair_eqb_spec (c, t) (ch, tr)) as [E|Ne].
  - injection E as -> ->. destruct H as [[H ->]|[H|H]].
    + right; left. unfold emit. eapply same_P1; [|apply append_same|]; [apply get_new_good; auto|]. apply get_new_P0. auto.
    + right; left. unfold emit. eapply same_P1; [|apply append_same|]; [apply get_new_good; auto|]. rewrite (get_new_P1 _ _ _ _ _ _ H). auto.
    + right; right. apply emit_PS; auto.
  - destruct (emit_other dc s prog t c n ch tr G Ne) as [A [B C]]. destruct H as [[H ->]|[H|H]]; [left; auto|right; left; auto|right; right; auto].
Qed.
(** a controller event *)
Definition ctl (s : lstate) (pr c t : Z) (f : cell -> cell) : lstate := in_cell (fst (get_cell s pr c t)) (snd (get_cell s pr c t)) f.
Lemma ctl_good : forall s pr c t f, good s -> good (ctl s pr c t f).
Proof. intros. apply in_cell_good. apply get_cell_good. auto. Qed.
Lemma ctl_same2 : forall s pr c t f ch tr, good s -> (c, t) <> (ch, tr) ->
  same ch tr s (fst (get_cell s pr c t)) /\ same ch tr (fst (get_cell s pr c t)) (ctl s pr c t f) /\ good (fst (get_cell s pr c t)).
Proof.
  intros s pr c t f ch tr G Ne. destruct (get_cell_good s pr c t G) as [G1 [_ G3]]. split; [apply get_cell_same; auto|]. split; auto.
  eapply in_cell_same; eauto.
Qed.
Lemma ctl_other : forall s pr c t f ch tr, good s -> (c, t) <> (ch, tr) ->
  (P0 ch tr s -> P0 ch tr (ctl s pr c t f)) /\ (forall x, PS ch tr x s -> PS ch tr x (ctl s pr c t f)) /\
  (forall p x, P1 ch tr p x s -> P1 ch tr p x (ctl s pr c t f)).
Proof.
  intros s pr c t f ch tr G Ne. destruct (ctl_same2 s pr c t f ch tr G Ne) as [S1 [S2 G1]].
  split; [|split]; intros.
  - eapply same_P0; [exact S2|]. eapply same_P0; eauto.
  - eapply same_PS; [|exact S2|]; auto. apply (same_PS ch tr _ _ _ G S1). auto.
  - eapply same_P1; [|exact S2|]; auto. apply (same_P1 ch tr _ _ _ _ G S1). auto.
Qed.
Lemma ctl_PS : forall s pr ch tr f x, PS ch tr x s -> PS ch tr (f x) (ctl s pr ch tr f).
Proof.
  intros s pr ch tr f x [c0 [H1 [H2 H3]]].
  assert (get_cell s pr ch tr = (s, c0)) as E.
  { unfold get_cell. destruct (assoc ikey_eqb (pr, ch, tr) (l_insts s)) as [i|] eqn:Ei.
    - apply assoc_In in Ei; [|apply ikey_eqb_spec]. rewrite (H3 _ _ Ei). reflexivity.
    - rewrite H1. reflexivity. }
  unfold ctl. rewrite E. simpl. exists c0. split; [auto|]. split; [|auto]. simpl. rewrite upd_nth_get, Nat.eqb_refl, H2. reflexivity.
Qed.
Lemma ctl_P0 : forall s pr ch tr f, P0 ch tr s -> PS ch tr (f (mkC [] [])) (ctl s pr ch tr f).
Proof.
  intros s pr ch tr f [H1 H2]. unfold ctl, get_cell. destruct (assoc ikey_eqb (pr, ch, tr) (l_insts s)) as [i|] eqn:Ei.
  { apply assoc_In in Ei; [|apply ikey_eqb_spec]. exfalso. eapply H2; eauto. }
  rewrite H1. simpl. exists (List.length (l_cells s)). simpl. split; [|split].
  - rewrite assoc_app, H1, assoc_cons. destruct (pair_eqb_spec (ch, tr) (ch, tr)); [reflexivity|congruence].
  - rewrite upd_nth_get, Nat.eqb_refl, nth_error_app2, Nat.sub_diag by lia. reflexivity.
  - intros p i Hi. exfalso. eapply H2; eauto.
Qed.
Lemma ctl_P1 : forall s pr ch tr f x, P1 ch tr pr x s -> P1 ch tr pr (f x) (ctl s pr ch tr f).
Proof.
  intros s pr ch tr f x [H1 [i [H2 [H3 H4]]]]. unfold ctl, get_cell. unfold inst_of in H2. rewrite H2. simpl. split; [auto|].
  exists i. split; [exact H2|]. simpl. split; [|auto]. rewrite upd_nth_get, Nat.eqb_refl, H3. reflexivity.
Qed.
Lemma ctl_Phase : forall s pr ch tr f x, Phase ch tr pr x s -> Phase ch tr pr (f x) (ctl s pr ch tr f).
Proof.
  intros s pr ch tr f x [[H ->]|[H|H]].
  - right; right. apply ctl_P0; auto.
  - right; left. apply ctl_P1; auto.
  - right; right. apply ctl_PS; auto.
Qed.
(** Phase at the end: what an instrument holds *)
Lemma Phase_ctrl : forall ch tr p x s pr i, Phase ch tr p x s -> inst_of s (pr, ch, tr) = Some i -> ctrl_of s (pr, ch, tr) = Some x.
Proof.
  intros ch tr p x s pr i H E. unfold ctrl_of. rewrite E. apply inst_In in E. destruct H as [[[_ H] _]|[[_ [j [_ [H1 H2]]]]|[c0 [H1 [H2 H3]]]]].
  - exfalso. eapply H; eauto.
  - destruct (H2 _ _ E) as [_ ->]. auto.
  - rewrite (H3 _ _ E). auto.
Qed.
