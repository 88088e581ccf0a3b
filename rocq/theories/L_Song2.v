(** Times and ticks; the timing track. *)
From Coq Require Import Sorted Permutation Lia Lqa Qabs Qround.
From Verif Require Import PyBase L_Base M_SortedDict M_Note L_Note2 M_Ticks S_Ticks L_Ticks M_Load S_Load L_Load2 M_Write S_Write L_Write M_Meta S_Meta L_Meta M_Song S_Song L_Song.
Open Scope Z_scope.

(** ** time_to_tick respects equality of rationals *)
Lemma Qltb_comp : forall a b c d, (a == b)%Q -> (c == d)%Q -> Qltb a c = Qltb b d.
Proof.
  intros a b c d H K. destruct (Qltb a c) eqn:A, (Qltb b d) eqn:B; auto.
  - apply Qltb_lt in A. apply Qltb_ge in B. lra.
  - apply Qltb_ge in A. apply Qltb_lt in B. lra.
Qed.
Lemma bisect_comp : forall (a : list Q) t t', (t == t')%Q -> forall n lo hi, bisect_left_loop Qltb a t n lo hi = bisect_left_loop Qltb a t' n lo hi.
Proof.
  intros a t t' H. induction n as [|n IH]; intros lo hi; cbn [bisect_left_loop]; auto.
  destruct (Nat.ltb lo hi); auto. cbv zeta. destruct (nth_error a (Nat.div (lo + hi) 2)); auto.
  rewrite (Qltb_comp q q t t') by (reflexivity || auto). destruct (Qltb q t'); auto.
Qed.
Lemma round_comp : forall x y, (x == y)%Q -> round_half_even x = round_half_even y.
Proof.
  intros x y H. unfold round_half_even. cbv zeta. rewrite (Qfloor_comp _ _ H).
  assert (D : (x - inject_Z (Qfloor y) == y - inject_Z (Qfloor y))%Q) by (rewrite H; reflexivity).
  rewrite (Qltb_comp _ _ (1 # 2) (1 # 2) D (Qeq_refl _)), (Qltb_comp (1 # 2) (1 # 2) _ _ (Qeq_refl _) D). reflexivity.
Qed.
Lemma time_to_tick_comp : forall p t t', (t == t')%Q -> time_to_tick p t = time_to_tick p t'.
Proof.
  intros p t t' H. unfold time_to_tick, bisect_left. cbv zeta. rewrite (bisect_comp _ t t' H).
  destruct (Nat.eqb _ _).
  - destruct (py_nth _ _) as [tl|]; cbn [bind]; auto. destruct (rev (p_scales p)) as [|[s sc] l]; auto. destruct (Qeq_bool sc 0); auto.
    f_equal. apply round_comp. rewrite H. reflexivity.
  - destruct (Nat.eqb _ _); auto. destruct (py_nth _ _) as [t0|]; cbn [bind]; auto. destruct (py_nth _ _) as [t1|]; cbn [bind]; auto.
    rewrite (Qltb_comp (Qabsb (t - t0)) (Qabsb (t' - t0)) (Qabsb (t - t1)) (Qabsb (t' - t1))); auto; apply Qabsb_comp; rewrite H; reflexivity.
Qed.
Lemma Qabsb_Qabs : forall x, (Qabsb x == Qabs x)%Q.
Proof.
  intros x. unfold Qabsb. destruct (Qle_bool 0 x) eqn:E; [apply Qle_bool_iff in E; symmetry; apply Qabs_pos; auto|].
  symmetry. apply Qabs_neg. destruct (Qlt_le_dec 0 x) as [L|L]; auto. assert (Qle_bool 0 x = true) by (apply Qle_bool_iff; lra). congruence.
Qed.

(** ** Ticks of a piece *)
Section PIECE.
Variables (p : pm) (f : Z -> Q).
Definition old : Z -> Q := sum_to f.
Hypothesis Fpos : forall i, 0 <= i -> (0 < f i)%Q.
Hypothesis Near : forall t, exists k, time_to_tick p t = Ok k /\ nearest old t k.

Lemma near_ok : forall t k, time_to_tick p t = Ok k -> nearest old t k.
Proof. intros t k H. destruct (Near t) as [k' [E N]]. rewrite E in H. injection H as <-. exact N. Qed.
Lemma near_nonneg : forall t k, time_to_tick p t = Ok k -> 0 <= k.
Proof. intros t k H. exact (proj1 (near_ok t k H)). Qed.
Lemma tick_mono : forall t1 t2 k1 k2, (t1 <= t2)%Q -> time_to_tick p t1 = Ok k1 -> time_to_tick p t2 = Ok k2 -> k1 <= k2.
Proof.
  intros t1 t2 k1 k2 L E1 E2. destruct (Qlt_le_dec t1 t2) as [S1|S1].
  - apply (nearest_mono f t1 t2 k1 k2); auto.
    + destruct (near_ok _ _ E1) as [A B]. split; auto. intros j J. rewrite !Qabsb_Qabs. apply B; auto.
    + destruct (near_ok _ _ E2) as [A B]. split; auto. intros j J. rewrite !Qabsb_Qabs. apply B; auto.
  - rewrite (time_to_tick_comp p t1 t2) in E1 by lra. rewrite E1 in E2. injection E2 as ->. lia.
Qed.
Lemma near_zero : nearest old 0 0.
Proof.
  split; [lia|]. intros j J. unfold old at 1. rewrite sum_to_0. setoid_replace (0 - 0)%Q with 0%Q by ring. change (Qabs 0) with 0%Q. apply Qabs_nonneg.
Qed.

(** A list of events with times, put on ticks and sorted by tick. *)
Lemma sort_returns : forall A B (time : A -> Q) (R : A -> Z * B -> Prop) l kl,
  (forall x y, R x y -> time_to_tick p (time x) = Ok (fst y)) -> Forall2 R l kl ->
  exists l1, Permutation l1 l /\ Forall2 R l1 (py_sort (fun a b => fst a <? fst b) kl) /\
    (StronglySorted (fun a b => (time a <= time b)%Q) l -> l1 = l).
Proof.
  intros A B time R l kl HR F.
  set (c := combine l kl). set (s := py_sort (fun a b : A * (Z * B) => fst (snd a) <? fst (snd b)) c).
  assert (Len : List.length l = List.length kl) by (clear - F; induction F; cbn; auto).
  assert (M1 : map fst c = l). { subst c. clear - Len. revert kl Len. induction l; destruct kl; cbn; intros; try discriminate; auto. f_equal. auto. }
  assert (M2 : map snd c = kl). { subst c. clear - Len. revert kl Len. induction l; destruct kl; cbn; intros; try discriminate; auto. f_equal. auto. }
  assert (FM : forall X Y (g : X -> Y) (m : list X), flat_map (fun x => [g x]) m = map g m) by (intros; induction m; cbn; auto; f_equal; auto).
  assert (Ss : map snd s = py_sort (fun a b => fst a <? fst b) kl).
  { rewrite <- M2, <- !FM. subst s. apply (sort_select (A * (Z * B)) (fun a => fst (snd a)) (Z * B) fst (fun x => [snd x])).
    - intros a b a' b' H H'. injection H as <-. injection H' as <-. tauto.
    - intros a. cbn. lia. }
  exists (map fst s). split; [|split].
  - transitivity (map fst c); [|rewrite M1; reflexivity]. apply Permutation_map. apply Permutation_sym. apply py_sort_perm.
  - rewrite <- Ss. apply Forall2_map_l, Forall2_map_r.
    assert (Fc : Forall (fun x => R (fst x) (snd x)) c) by (subst c; clear - F; induction F; cbn; constructor; auto).
    assert (Fs : Forall (fun x => R (fst x) (snd x)) s).
    { rewrite Forall_forall in *. intros x X. apply Fc. eapply Permutation_in; [apply Permutation_sym; apply py_sort_perm|exact X]. }
    clear - Fs. induction Fs; constructor; auto.
  - intros SS. subst s. rewrite (sort_id (A * (Z * B)) (fun a => fst (snd a))); auto.
    subst c. clear Len M1 M2 Ss. induction F as [|x y l kl H F IH]; cbn; [constructor|]. apply StronglySorted_inv in SS as [SS FS].
    constructor; auto. rewrite Forall_forall in *. intros [x' y'] X. cbn [fst snd].
    pose proof (in_combine_l _ _ _ _ X) as X1. specialize (FS x' X1).
    assert (R x' y'). { clear - F X. induction F; cbn in X; [tauto|]. destruct X as [X|X]; [injection X as <- <-; auto|auto]. }
    eapply tick_mono; eauto.
Qed.

(** *** Order of the events of the timing track *)
Definition mkey (e : Z * meta) : Z := fst e * 1048576 + match meta_rank (snd e) with Some x => x | None => 0 end.
Definition ranked (e : Z * meta) : Prop := snd e <> M_Meta.MOther.
Lemma meta_lt_key : forall a b, ranked a -> ranked b -> meta_lt a b = (mkey a <? mkey b).
Proof.
  intros [t m] [t' m'] A B. unfold meta_lt, mkey, ranked in *. cbn [fst snd] in *.
  destruct m; try congruence; destruct m'; try congruence; cbn [meta_rank];
    (destruct (Z.eqb_spec t t') as [->|N]; [|]); repeat match goal with |- context [?x <? ?y] => destruct (Z.ltb_spec x y) end; auto; lia.
Qed.
Lemma sort_metas : forall l, Forall ranked l -> py_sort meta_lt l = py_sort (fun a b => mkey a <? mkey b) l.
Proof. intros l F. rewrite Forall_forall in F. apply py_sort_ext. intros. apply meta_lt_key; auto. Qed.
Lemma mkey_tick : forall a b, ranked a -> ranked b -> mkey a <= mkey b -> fst a <= fst b.
Proof.
  intros [t m] [t' m'] A B. unfold mkey, ranked in *. cbn [fst snd] in *.
  destruct m; try congruence; destruct m'; try congruence; cbn [meta_rank]; lia.
Qed.
Lemma sorted_ticks : forall l, Forall ranked l -> StronglySorted (fun a b : Z * meta => fst a <= fst b) (py_sort meta_lt l).
Proof.
  intros l F. rewrite sort_metas by auto. pose proof (key_sorted _ mkey l) as S1.
  assert (F' : Forall ranked (py_sort (fun a b => mkey a <? mkey b) l)).
  { rewrite Forall_forall in *. intros x X. apply F. eapply Permutation_in; [apply Permutation_sym; apply py_sort_perm|exact X]. }
  revert S1 F'. generalize (py_sort (fun a b => mkey a <? mkey b) l). induction l0 as [|x l0 IH]; intros S1 F'; [constructor|].
  apply StronglySorted_inv in S1 as [S1 H]. inversion F' as [|? ? Rx F2]; subst. constructor; auto.
  rewrite Forall_forall in *. intros y Y. apply mkey_tick; auto.
Qed.
Lemma select_sorted : forall B (g : Z * meta -> list (Z * B)) rk,
  (forall e b, g e = [b] -> fst b = fst e /\ meta_rank (snd e) = Some rk) -> (forall e, (List.length (g e) <= 1)%nat) ->
  forall l, Forall ranked l -> flat_map g (py_sort meta_lt l) = py_sort (fun a b => fst a <? fst b) (flat_map g l).
Proof.
  intros B g rk H L l F. rewrite sort_metas by auto. apply (sort_select _ mkey (Z * B) fst); auto.
  intros a b a' b' E E'. apply H in E as [E E1]. apply H in E' as [E' E1']. unfold mkey. rewrite E1, E1', E, E'. lia.
Qed.
End PIECE.
