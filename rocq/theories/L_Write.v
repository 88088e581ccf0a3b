From Coq Require Import Lia Sorted Permutation Arith.
From Verif Require Import PyBase L_Base L_Sort M_Load S_Load M_Write S_Write L_Load L_Load2 L_Load3 L_Load4.
Open Scope Z_scope.

Definition vmsg (m : msg) : Prop :=
  match m with
  | MProg _ _ | MEnd => True
  | MBend _ p => -8192 <= p <= 8191
  | MCC _ c v => 0 <= c <= 127 /\ 0 <= v <= 127
  | MOff _ n => 0 <= n <= 127
  | MOn _ n v => 0 <= n <= 127 /\ 0 <= v <= 127
  | MName _ | MOther => False
  end.
Lemma lt_order : forall a b, vmsg (snd a) -> vmsg (snd b) -> (event_lt b a = false <-> in_order a b).
Proof.
  intros [t m] [u k] A B. unfold event_lt, event_compare, in_order; cbn [fst snd] in *.
  destruct (Z.eqb_spec u t) as [->|N].
  - assert (forall P, (t < t \/ t = t /\ P) <-> P) as -> by (intros; split; [intros [?|[_ ?]]; [lia|auto]|auto]).
    destruct m, k; cbn [vmsg rank kind par1 par2] in *; try contradiction; rewrite Z.ltb_ge; lia.
  - rewrite Z.ltb_ge. split; [lia|]. intros [?|[? _]]; lia.
Qed.
Lemma order_trans : forall a b c, in_order a b -> in_order b c -> in_order a c.
Proof. intros a b c. unfold in_order. intros. lia. Qed.
Definition vev (e : event) : Prop := vmsg (snd e).
Lemma asym_ev : forall a b, vev a -> vev b -> event_lt a b = true -> event_lt b a = false.
Proof.
  intros a b A B H. apply lt_order; auto. destruct (event_lt b a) eqn:E; [|apply lt_order; auto]. exfalso.
  assert (~ in_order b a). { intro C. apply lt_order in C; auto. congruence. }
  assert (~ in_order a b). { intro C. apply lt_order in C; auto. congruence. }
  unfold in_order in *. lia.
Qed.
Lemma ntrans_ev : forall a b c, vev a -> vev b -> vev c -> event_lt b a = false -> event_lt c b = false -> event_lt c a = false.
Proof. intros a b c A B C H1 H2. apply lt_order; auto. apply lt_order in H1, H2; auto. eapply order_trans; eauto. Qed.
Lemma sort_order : forall l, Forall vev l -> StronglySorted in_order (py_sort event_lt l) /\ Permutation l (py_sort event_lt l).
Proof.
  intros l F. split; [|apply py_sort_perm]. assert (S := py_sort_sorted_rel event_lt vev asym_ev ntrans_ev l F).
  assert (F' : Forall vev (py_sort event_lt l)) by (eapply Permutation_Forall; [apply py_sort_perm|auto]).
  unfold sorted_by in S. revert F'. induction S as [|x r S IH H]; intros F'; constructor.
  - apply IH. inversion F'; auto.
  - inversion F' as [|? ? V1 V2]; subst. rewrite Forall_forall in *. intros y Hy. apply lt_order; auto. apply V2; auto.
Qed.
(** the swap pass does nothing *)
Lemma swap_fold : forall (l : list event) idx tr, (forall i a b, In i idx -> nth_error l i = Some a -> nth_error l (S i) = Some b -> swap_here a b = false) ->
  fold_left (fun tr i => match nth_error l i, nth_error l (S i) with
                         | Some a, Some b => if swap_here a b then set_nth (set_nth tr i b) (S i) a else tr
                         | _, _ => tr end) idx tr = tr.
Proof.
  intros l idx. induction idx as [|i idx IH]; intros tr H; cbn [fold_left]; auto.
  destruct (nth_error l i) eqn:E1; [|apply IH; intros; eapply H; eauto; right; auto].
  destruct (nth_error l (S i)) eqn:E2; [|apply IH; intros; eapply H; eauto; right; auto].
  rewrite (H i _ _ (or_introl eq_refl) E1 E2). apply IH. intros; eapply H; eauto; right; auto.
Qed.
Lemma swap_none : forall a b, vev a -> vev b -> in_order a b -> swap_here a b = false.
Proof.
  intros [t m] [u k] A B H. unfold swap_here, vev in *; cbn [fst snd] in *. destruct m; auto. destruct k; auto.
  destruct (Z.eqb_spec t u); auto. destruct (Z.eqb_spec note note0); auto. destruct (Z.eqb_spec velocity 0); auto.
  destruct (Z.eqb_spec velocity0 0); auto. exfalso. subst. unfold in_order in H. simpl in *. lia.
Qed.
Lemma SS_nth : forall A (R : A -> A -> Prop) l i a b, StronglySorted R l -> nth_error l i = Some a -> nth_error l (S i) = Some b -> R a b.
Proof.
  intros A R l i a b S. revert i. induction S as [|x r S IH H]; intros i H1 H2; [destruct i; discriminate|]. destruct i as [|i]; simpl in H1, H2.
  - injection H1 as ->. rewrite Forall_forall in H. apply H. destruct r; [discriminate|]. injection H2 as ->. left; auto.
  - eapply IH; eauto.
Qed.
Lemma swap_id : forall l, Forall vev l -> StronglySorted in_order l -> swap_pass l = l.
Proof.
  intros l F S. unfold swap_pass. apply swap_fold. intros i a b _ H1 H2. rewrite Forall_forall in F.
  apply swap_none; [apply F; eapply nth_error_In; eauto|apply F; eapply nth_error_In; eauto|]. eapply SS_nth; eauto.
Qed.
Lemma inst_vev : forall ch i, midi_inst i -> Forall vev (inst_events ch i) /\ forall e, In e (inst_events ch i) -> 0 <= fst e.
Proof.
  intros ch i [N [B C]]. rewrite Forall_forall. unfold inst_events. assert (H : forall e, In e ((0, MProg ch (w_prog i)) ::
    flat_map (fun n => [(pn_start n, MOn ch (pn_pitch n) (pn_vel n)); (pn_end n, MOn ch (pn_pitch n) 0)]) (w_notes i) ++
    map (fun b => (fst b, MBend ch (snd b))) (w_bends i) ++ map (fun c => (fst (fst c), MCC ch (snd (fst c)) (snd c))) (w_ccs i)) -> vev e /\ 0 <= fst e).
  { intros e [<-|H]; [split; [exact I|simpl; lia]|]. apply in_app_iff in H as [H|H].
    - apply in_flat_map in H as [n [Hn H]]. apply N in Hn as [? [? ?]]. destruct H as [<-|[<-|[]]]; unfold vev; simpl; lia.
    - apply in_app_iff in H as [H|H]; apply in_map_iff in H as [x [<- H]].
      + apply B in H. unfold vev; simpl; lia.
      + apply C in H. unfold vev; simpl; lia. }
  split; intros e He; apply H; auto.
Qed.
(** the written track *)
Definition body (ch : Z) (i : winst) : list event := py_sort event_lt (inst_events ch i).
Definition name_ev (i : winst) : list event := if String.eqb (w_name i) EmptyString then [] else [(0, MName (w_name i))].
Lemma track_shape : forall ch i, midi_inst i -> exists last,
  write_track ch i = name_ev i ++ body ch i ++ [(last + 1, MEnd)] /\ (forall e, In e (body ch i) -> 0 <= fst e <= last) /\ (exists e, In e (body ch i) /\ fst e = last).
Proof.
  intros ch i M. destruct (inst_vev ch i M) as [V G]. destruct (sort_order _ V) as [S P]. unfold write_track.
  assert (swap_pass (py_sort event_lt (inst_events ch i)) = py_sort event_lt (inst_events ch i)) as W.
  { apply swap_id; auto. eapply Permutation_Forall; eauto. }
  rewrite W. fold (body ch i) in *. fold (name_ev i).
  destruct (exists_last (l := body ch i)) as [l' [x E]].
  { intros C. rewrite C in P. apply Permutation_sym in P. apply Permutation_nil in P. discriminate P. }
  exists (fst x). rewrite E. assert (last (name_ev i ++ l' ++ [x]) (0, MEnd) = x) as L by (rewrite app_assoc; apply last_last).
  split; [|split].
  - cbv zeta. match goal with |- context [last ?a ?d] => replace (last a d) with x by (symmetry; exact L) end. rewrite <- !app_assoc. reflexivity.
  - intros e He. split; [apply G; apply (Permutation_in _ (Permutation_sym P)); rewrite E; auto|].
    rewrite E in S. apply in_app_iff in He as [He|[<-|[]]]; [|lia]. apply SS_app_iff in S as [_ [_ S]]. specialize (S e x He (or_introl eq_refl)).
    unfold in_order in S. lia.
  - exists x. split; auto. apply in_or_app; right; left; auto.
Qed.
