From Coq Require Import Lia ZifyBool.
From Verif Require Import PyBase M_Interval S_Interval.
Open Scope Z_scope.

Lemma i_sto : strict_total_order i_ltb i_eqb.
Proof.
  split; unfold i_ltb, i_eqb.
  - intros [a b] [c d]; cbn. split; intro H; [f_equal; lia|injection H as -> ->; lia].
  - intros [a b]; cbn. lia.
  - intros [a b] [c d] [e f]; cbn. lia.
  - intros [a b] [c d]; cbn. 
    destruct (Z.eq_dec a c), (Z.eq_dec b d); subst; auto; [|lia|lia].
    destruct (Z.lt_ge_cases b d); lia.
Qed.

Lemma i_contains_iff a x : i_contains a x = true <-> in_closed a x.
Proof. unfold i_contains, in_closed. lia. Qed.

Lemma i_overlaps_iff a b : i_overlaps a b = true <-> exists x, in_closed a x /\ in_closed b x.
Proof.
  unfold i_overlaps, in_closed. split.
  - intro H. exists (Z.max (i_start a) (i_start b)). lia.
  - intros (x & H1 & H2). lia.
Qed.

Lemma i_inter_ok a b : match i_intersection a b with
  | None => forall x, ~ (in_closed a x /\ in_closed b x)
  | Some c => (exists x, in_closed c x) /\ forall x, in_closed c x <-> in_closed a x /\ in_closed b x
  end.
Proof.
  unfold i_intersection. destruct (i_overlaps a b) eqn:E.
  - unfold i_overlaps in E. rewrite E. unfold in_closed. cbn. split; [|lia].
    exists (Z.max (i_start a) (i_start b)). lia.
  - intros x Hx. assert (i_overlaps a b = true) by (apply i_overlaps_iff; eauto). congruence.
Qed.

Lemma i_union_hull a b :
  (forall x, in_closed a x \/ in_closed b x -> in_closed (i_union a b) x) /\
  (forall c, (forall x, in_closed a x -> in_closed c x) -> (forall x, in_closed b x -> in_closed c x) ->
     i_start a <= i_end a -> i_start b <= i_end b ->
     forall x, in_closed (i_union a b) x -> in_closed c x).
Proof.
  unfold in_closed, i_union. split; cbn.
  - lia.
  - intros c Ha Hb H1 H2 x Hx.
    pose proof (Ha (i_start a)). pose proof (Ha (i_end a)).
    pose proof (Hb (i_start b)). pose proof (Hb (i_end b)). lia.
Qed.

Lemma i_union_exact a b : i_start a <= i_end a -> i_start b <= i_end b -> i_overlaps a b = true ->
  forall x, in_closed (i_union a b) x <-> in_closed a x \/ in_closed b x.
Proof. unfold i_overlaps, in_closed, i_union. cbn. lia. Qed.

Lemma i_union_gap : exists a b x,
  i_start a <= i_end a /\ i_start b <= i_end b /\
  in_closed (i_union a b) x /\ ~ in_closed a x /\ ~ in_closed b x.
Proof.
  exists (mkI 0 1), (mkI 5 6), 3. unfold in_closed. cbn. lia.
Qed.
Lemma i_le_hash : forall h a b,
  (i_leb a b = true <-> i_ltb a b = true \/ a = b) /\
  (i_eqb a b = true -> i_hash h a = i_hash h b).
Proof.
  intros h a b. unfold i_leb. rewrite Bool.orb_true_iff, (sto_eq _ _ i_sto). split; [tauto|].
  intros ->. reflexivity.
Qed.
Lemma i_ltb_lex : forall a b,
  (i_ltb a b = true <-> i_start a < i_start b \/ (i_start a = i_start b /\ i_end a < i_end b)).
Proof.
  intros a b. unfold i_ltb. rewrite Bool.orb_true_iff, Bool.andb_true_iff, !Z.ltb_lt, Z.eqb_eq. tauto.
Qed.
