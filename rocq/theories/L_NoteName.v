(** Lemmas for note names. *)
From Coq Require Import QArith Qabs Lqa Lia ZArith List.
From Verif Require Import PyBase M_Note M_NoteName S_Graph S_NoteName L_Base L_Note L_Chord.
Import ListNotations.
Open Scope Z_scope.
Open Scope list_scope.

Definition nodig (l : list Z) : Prop := match l with [] => True | c :: _ => is_digit c = false end.
Lemma dig : forall d, 0 <= d <= 9 -> is_digit (48 + d) = true.
Proof. intros d H. unfold is_digit. apply andb_true_intro; split; apply Z.leb_le; lia. Qed.
Lemma num_ne : forall l n, numeral l n -> exists c r, l = c :: r /\ is_digit c = true.
Proof.
  induction 1 as [d H|l n d H IH D]; [exists (48 + d), []; split; [auto|apply dig; auto]|].
  destruct IH as [c [r [-> C]]]. exists c, (r ++ [48 + d]). split; auto.
Qed.
Lemma dec_num : forall f n, 0 <= n -> n < Z.of_nat f -> numeral (dec f n) n.
Proof.
  induction f as [|f IH]; intros n P N; [lia|]. cbn [dec]. destruct (Z.ltb_spec n 10); [apply one_digit; lia|].
  rewrite (Z.div_mod n 10) at 3 by lia. apply more_digits; [|pose proof (Z.mod_pos_bound n 10); lia].
  apply IH; [apply Z.div_pos; lia|]. pose proof (Z.div_lt n 10). lia.
Qed.
Lemma digits_app : forall l n, numeral l n -> forall r, exists a b, 
  (forall x, digits x (l ++ r) = digits (a * x + b) r) /\ b = n.
Proof.
  induction 1 as [d D|l n d H IH D]; intros r.
  - exists 10, d. split; [|reflexivity]. intros x. cbn [app digits]. rewrite (dig d D). f_equal. lia.
  - destruct (IH ([48 + d] ++ r)) as [a [b [E ->]]]. exists (10 * a), (10 * n + d). split; [|reflexivity].
    intros x. rewrite <- app_assoc, E. cbn [app digits]. rewrite (dig d D). f_equal. lia.
Qed.
Lemma digits_nodig : forall r x, nodig r -> digits x r = (x, r).
Proof. intros [|c r] x H; [reflexivity|]. cbn [digits]. cbn in H. rewrite H. reflexivity. Qed.
Lemma number_of : forall l n r, numeral l n -> nodig r -> number (l ++ r) = Some (n, r).
Proof.
  intros l n r H R. destruct (num_ne l n H) as [c [t [E C]]]. destruct (digits_app l n H r) as [a [b [D ->]]].
  unfold number. rewrite <- (app_nil_r (l ++ r)). rewrite app_nil_r. rewrite E at 1. cbn [app]. rewrite C.
  f_equal. rewrite E in D |- *. cbn [app] in D. rewrite D. rewrite digits_nodig by auto. f_equal. lia.
Qed.
Lemma digits_inv : forall l a p v r, numeral p a -> digits a l = (v, r) ->
  exists ds, l = ds ++ r /\ numeral (p ++ ds) v /\ nodig r.
Proof.
  induction l as [|c l IH]; intros a p v r Hp H; cbn [digits] in H.
  - injection H as <- <-. exists []. rewrite (app_nil_r p). split; [reflexivity|]. split; [auto|exact I].
  - destruct (is_digit c) eqn:C.
    + assert (D : 0 <= c - 48 <= 9) by (unfold is_digit in C; apply andb_prop in C as [C1 C2]; apply Z.leb_le in C1, C2; lia).
      destruct (IH (10 * a + (c - 48)) (p ++ [c]) v r) as [ds [E [N R]]]; [|exact H|].
      * replace c with (48 + (c - 48)) at 1 by lia. apply more_digits; auto.
      * exists (c :: ds). rewrite E. split; [reflexivity|]. rewrite <- app_assoc in N. split; auto.
    + injection H as <- <-. exists []. rewrite (app_nil_r p). split; [reflexivity|]. split; [auto|exact C].
Qed.
Lemma number_inv : forall l v r, number l = Some (v, r) -> exists ds, l = ds ++ r /\ numeral ds v /\ nodig r.
Proof.
  intros [|c l] v r H; [discriminate|]. unfold number in H. destruct (is_digit c) eqn:C; [|discriminate].
  assert (H' : digits 0 (c :: l) = (v, r)) by (injection H; auto). cbn [digits] in H'. rewrite C in H'.
  assert (D : 0 <= c - 48 <= 9) by (unfold is_digit in C; apply andb_prop in C as [C1 C2]; apply Z.leb_le in C1, C2; lia).
  destruct (digits_inv l (10 * 0 + (c - 48)) [c] v r) as [ds [E [N R]]]; [|exact H'|].
  - replace c with (48 + (c - 48)) at 1 by lia. replace (10 * 0 + (c - 48)) with (c - 48) by lia. apply one_digit; auto.
  - exists (c :: ds). rewrite E. split; [reflexivity|]. split; auto.
Qed.
Lemma with_sign_of : forall l z r, signed l z -> nodig r -> with_sign (l ++ r) = Some (z, r).
Proof.
  intros l z r [[t [-> H]] | [t [-> H]]] R; cbn [app with_sign]; cbn [Z.eqb Pos.eqb]; rewrite (number_of _ _ r H R); [reflexivity|].
  f_equal. f_equal. lia.
Qed.
Lemma with_sign_inv : forall l v r, with_sign l = Some (v, r) -> exists s, l = s ++ r /\ signed s v /\ nodig r.
Proof.
  intros [|c l] v r H; [discriminate|]. cbn [with_sign] in H. destruct (Z.eqb_spec c 43) as [->|C1].
  - apply number_inv in H as [ds [-> [N R]]]. exists (43 :: ds). split; [reflexivity|]. split; [left; exists ds; auto|auto].
  - destruct (Z.eqb_spec c 45) as [->|C2]; [|discriminate]. destruct (number l) as [[v' r']|] eqn:E; [|discriminate].
    injection H as <- <-. apply number_inv in E as [ds [-> [N R]]]. exists (45 :: ds). split; [reflexivity|].
    split; [right; exists ds; split; [reflexivity|]; rewrite Z.opp_involutive; auto|auto].
Qed.
Lemma sign_none : forall l n r, numeral l n -> with_sign (l ++ r) = None.
Proof.
  intros l n r H. destruct (num_ne l n H) as [c [t [-> C]]]. cbn [app with_sign].
  destruct (Z.eqb_spec c 43) as [->|]; [discriminate C|]. destruct (Z.eqb_spec c 45) as [->|]; [discriminate C|reflexivity].
Qed.
Lemma maybe_of : forall l z r, numeral l z \/ signed l z -> nodig r -> maybe_sign (l ++ r) = Some (z, r).
Proof.
  intros l z r [H|H] R; unfold maybe_sign; [rewrite (sign_none l z r H); apply number_of; auto|].
  rewrite (with_sign_of l z r H R). reflexivity.
Qed.
Lemma maybe_inv : forall l v r, maybe_sign l = Some (v, r) -> exists s, l = s ++ r /\ (numeral s v \/ signed s v) /\ nodig r.
Proof.
  intros l v r H. unfold maybe_sign in H. destruct (with_sign l) as [[v' r']|] eqn:E.
  - injection H as <- <-. apply with_sign_inv in E as [s [-> [S1 R]]]. exists s. auto.
  - apply number_inv in H as [s [-> [N R]]]. exists s. auto.
Qed.
Lemma letter_iff : forall c k, letter c = Some k <-> In (c, k) letters.
Proof.
  intros c k. unfold letter, letters. split.
  - intros H. repeat match type of H with (if ?b then _ else _) = _ => destruct b eqn:?E end; try discriminate;
      injection H as <-; match goal with E : (_ || _)%bool = true |- _ => apply orb_prop in E as [E|E]; apply Z.eqb_eq in E; subst c; cbn [In]; tauto end.
  - cbn [In]. intros H. repeat destruct H as [H|H]; try contradiction; injection H as <- <-; reflexivity.
Qed.
Lemma acc_iff : forall c k, accidental c = Some k <-> In (c, k) signs.
Proof.
  intros c k. unfold accidental, signs. split.
  - intros H. destruct ((c =? 35) || (c =? 9839))%bool eqn:E1; [injection H as <-; apply orb_prop in E1 as [E|E]; apply Z.eqb_eq in E; subst c; cbn [In]; tauto|].
    destruct ((c =? 98) || (c =? 33) || (c =? 9837))%bool eqn:E2; [injection H as <-; apply orb_prop in E2 as [E2|E]; [apply orb_prop in E2 as [E|E]|]; apply Z.eqb_eq in E; subst c; cbn [In]; tauto|].
    destruct (c =? 119082) eqn:E3; [injection H as <-; apply Z.eqb_eq in E3; subst c; cbn [In]; tauto|].
    destruct (c =? 119083) eqn:E4; [injection H as <-; apply Z.eqb_eq in E4; subst c; cbn [In]; tauto|].
    destruct (c =? 9838) eqn:E5; [injection H as <-; apply Z.eqb_eq in E5; subst c; cbn [In]; tauto|discriminate].
  - cbn [In]. intros H. repeat destruct H as [H|H]; try contradiction; injection H as <- <-; reflexivity.
Qed.
Definition noacc (l : list Z) : Prop := match l with [] => True | c :: _ => accidental c = None end.
Lemma accs_of : forall accs ks r, Forall2 (fun a n => In (a, n) signs) accs ks -> noacc r -> accidentals (accs ++ r) = (total ks, r).
Proof.
  intros accs ks r H R. induction H as [|a n accs ks A H IH].
  - cbn [app total fold_right]. destruct r as [|c r]; [reflexivity|]. cbn [accidentals]. cbn in R. rewrite R. reflexivity.
  - cbn [app accidentals]. apply acc_iff in A. rewrite A, IH. reflexivity.
Qed.
Lemma accs_inv : forall l a r, accidentals l = (a, r) -> exists accs ks, l = accs ++ r /\ Forall2 (fun a n => In (a, n) signs) accs ks /\ a = total ks /\ noacc r.
Proof.
  induction l as [|c l IH]; intros a r H; cbn [accidentals] in H.
  - injection H as <- <-. exists [], []. split; [reflexivity|]. split; [constructor|]. split; [reflexivity|exact I].
  - destruct (accidental c) as [k|] eqn:C.
    + destruct (accidentals l) as [s r'] eqn:E. injection H as <- <-. destruct (IH s r' eq_refl) as [accs [ks [-> [F [-> R]]]]].
      exists (c :: accs), (k :: ks). split; [reflexivity|]. split; [constructor; [apply acc_iff; auto|auto]|]. split; [reflexivity|auto].
    + injection H as <- <-. exists [], []. split; [reflexivity|]. split; [constructor|]. split; [reflexivity|exact C].
Qed.
Lemma noacc_num : forall l n r, numeral l n \/ signed l n -> noacc (l ++ r).
Proof.
  assert (D : forall c, is_digit c = true -> accidental c = None).
  { intros c C. unfold is_digit in C. apply andb_prop in C as [C1 C2]. apply Z.leb_le in C1, C2.
    destruct (accidental c) as [k|] eqn:E; [|reflexivity]. apply acc_iff in E. unfold signs in E. cbn [In] in E.
    repeat destruct E as [E|E]; try contradiction; injection E as E _; subst c; lia. }
  intros l n r [H|H].
  - destruct (num_ne l n H) as [c [t [-> C]]]. cbn. apply D; auto.
  - destruct H as [[t [-> _]] | [t [-> _]]]; reflexivity.
Qed.
Lemma nodig_signed : forall l z, signed l z -> nodig l.
Proof. intros l z [[t [-> _]] | [t [-> _]]]; reflexivity. Qed.
Lemma nearest_unique : forall x a b, nearest_even x a -> nearest_even x b -> a = b.
Proof.
  intros x a b [A1 A2] [B1 B2]. apply Qabs_Qle_condition in A1 as [A3 A4]. apply Qabs_Qle_condition in B1 as [B3 B4].
  assert (I1 : a - b <= 1). { rewrite Zle_Qle. unfold Z.sub. rewrite inject_Z_plus, inject_Z_opp. change (inject_Z 1) with 1%Q. lra. }
  assert (I2 : b - a <= 1). { rewrite Zle_Qle. unfold Z.sub. rewrite inject_Z_plus, inject_Z_opp. change (inject_Z 1) with 1%Q. lra. }
  assert (T : a = b \/ a = b + 1 \/ b = a + 1) by lia. destruct T as [T|[T|T]]; [exact T| |]; exfalso.
  - subst a. rewrite inject_Z_plus in *. change (inject_Z 1) with 1%Q in *.
    assert (E1 : (Qabs (x - (inject_Z b + 1)) == 1 # 2)%Q) by (rewrite Qabs_neg; lra).
    assert (E2 : (Qabs (x - inject_Z b) == 1 # 2)%Q) by (rewrite Qabs_pos; lra).
    destruct (A2 E1) as [i I]. destruct (B2 E2) as [j J]. lia.
  - subst b. rewrite inject_Z_plus in *. change (inject_Z 1) with 1%Q in *.
    assert (E1 : (Qabs (x - (inject_Z a + 1)) == 1 # 2)%Q) by (rewrite Qabs_neg; lra).
    assert (E2 : (Qabs (x - inject_Z a) == 1 # 2)%Q) by (rewrite Qabs_pos; lra).
    destruct (B2 E1) as [i I]. destruct (A2 E2) as [j J]. lia.
Qed.
Lemma signed_ne : forall l z, signed l z -> l <> [].
Proof. intros l z [[t [-> _]] | [t [-> _]]]; discriminate. Qed.
Lemma spelled_iff : forall name p, note_to_midi name = Some p <-> spelled name p.
Proof.
  intros name p. split.
  - intros H. destruct name as [|c r]; [discriminate|]. cbn [note_to_midi] in H.
    destruct (letter c) as [k|] eqn:L; [|discriminate]. apply letter_iff in L.
    destruct (accidentals r) as [a r1] eqn:A. destruct (accs_inv _ _ _ A) as [accs [ks [-> [F [-> N]]]]].
    destruct (maybe_sign r1) as [[o r2]|] eqn:M.
    + destruct (maybe_inv _ _ _ M) as [s [-> [Hs R]]]. exists c, k, accs, ks, s, o.
      split; [exact L|]. split; [exact F|]. split; [right; exact Hs|].
      destruct r2 as [|d r2].
      * left. injection H as <-. split; [rewrite app_nil_r; reflexivity|reflexivity].
      * right. destruct (with_sign (d :: r2)) as [[ct [|? ?]]|] eqn:W; try discriminate.
        destruct (with_sign_inv _ _ _ W) as [cs [E [Hc _]]]. rewrite app_nil_r in E. split.
        -- destruct Hs as [Hs|Hs]; [destruct (num_ne _ _ Hs) as [? [? [-> _]]]; discriminate|apply (signed_ne _ _ Hs)].
        -- exists cs, ct. rewrite E. split; [reflexivity|]. split; [exact Hc|]. injection H as <-. apply round_nearest.
    + exists c, k, accs, ks, [], 0. split; [exact L|]. split; [exact F|]. split; [left; auto|].
      destruct r1 as [|d r1]; [left; injection H as <-; auto|].
      destruct (with_sign (d :: r1)) as [x|] eqn:W; [|discriminate]. unfold maybe_sign in M. rewrite W in M. discriminate.
  - intros [c [k [accs [ks [oc [o [L [F [O Hn]]]]]]]]]. apply letter_iff in L.
    assert (NA : forall r, nodig r -> noacc (oc ++ r) \/ oc = []).
    { intros r R. destruct O as [[-> _] | O]; [right; reflexivity|left; apply (noacc_num _ o); exact O]. }
    destruct Hn as [[-> ->] | [Ne [cs [ct [-> [Hc Hp]]]]]]; cbn [note_to_midi]; rewrite L.
    + destruct O as [[-> ->] | O].
      * rewrite (accs_of accs ks []) by (auto; exact I). reflexivity.
      * rewrite (accs_of accs ks oc) by (auto; rewrite <- (app_nil_r oc); apply (noacc_num _ o); exact O).
        rewrite <- (app_nil_r oc), (maybe_of oc o [] O I). reflexivity.
    + destruct O as [[-> _] | O]; [contradiction|].
      rewrite (accs_of accs ks (oc ++ cs)) by (auto; apply (noacc_num _ o); exact O).
      rewrite (maybe_of oc o cs O (nodig_signed _ _ Hc)). pose proof (signed_ne _ _ Hc) as Nc. pose proof (with_sign_of cs ct [] Hc I) as W.
      rewrite app_nil_r in W. destruct cs as [|d cs]; [contradiction|]. rewrite W. f_equal. apply (nearest_unique _ _ _ (round_nearest _) Hp).
Qed.
Lemma str_num : forall n, numeral (str_of_int n) n \/ signed (str_of_int n) n.
Proof.
  intros n. unfold str_of_int. destruct (Z.ltb_spec n 0).
  - right. right. eexists; split; [reflexivity|]. apply dec_num; lia.
  - left. apply dec_num; lia.
Qed.
(** The names that midi_to_note writes. *)
Lemma name_spelled : forall p, 0 <= p -> spelled (midi_to_note p) p.
Proof.
  intros p P. unfold midi_to_note. rewrite (Z.quot_div_nonneg p 12) by lia.
  pose proof (Z.mod_pos_bound p 12 ltac:(lia)) as B. pose proof (Z.div_mod p 12 ltac:(lia)) as D.
  set (o := p / 12 - 1) in *.
  assert (X : exists c k accs ks, nth (Z.to_nat (p mod 12)) class_names [] = c :: accs /\ In (c, k) letters /\
            Forall2 (fun a n => In (a, n) signs) accs ks /\ k + total ks = p mod 12).
  { assert (C : p mod 12 = 0 \/ p mod 12 = 1 \/ p mod 12 = 2 \/ p mod 12 = 3 \/ p mod 12 = 4 \/ p mod 12 = 5 \/ p mod 12 = 6 \/ p mod 12 = 7 \/ p mod 12 = 8 \/ p mod 12 = 9 \/ p mod 12 = 10 \/ p mod 12 = 11) by lia.
    assert (N : forall c k, In (c, k) letters -> exists c' k' accs ks, [c] = c' :: accs /\ In (c', k') letters /\ Forall2 (fun a n => In (a, n) signs) accs ks /\ k' + total ks = k).
    { intros c k H. exists c, k, [], []. split; [reflexivity|]. split; [exact H|]. split; [constructor|cbn; lia]. }
    assert (Sh : forall c k, In (c, k) letters -> exists c' k' accs ks, [c; 9839] = c' :: accs /\ In (c', k') letters /\ Forall2 (fun a n => In (a, n) signs) accs ks /\ k' + total ks = k + 1).
    { intros c k H. exists c, k, [9839], [1]. split; [reflexivity|]. split; [exact H|]. split; [constructor; [cbn [signs In]; tauto|constructor]|cbn; lia]. }
    repeat destruct C as [C|C]; rewrite C; cbn [Z.to_nat Pos.to_nat Pos.iter_op Nat.add class_names nth];
      first [apply N; cbn [letters In]; tauto | apply (Sh 67 0); cbn [letters In]; tauto | apply (Sh 68 2); cbn [letters In]; tauto | apply (Sh 70 5); cbn [letters In]; tauto | apply (Sh 71 7); cbn [letters In]; tauto | apply (Sh 65 9); cbn [letters In]; tauto]. }
  destruct X as [c [k [accs [ks [-> [L [F T]]]]]]]. exists c, k, accs, ks, (str_of_int o), o.
  split; [exact L|]. split; [exact F|]. split; [right; apply str_num|]. left. split; [reflexivity|]. lia.
Qed.
