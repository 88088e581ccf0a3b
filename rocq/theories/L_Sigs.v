From Coq Require Import Lia Lqa Sorted Permutation.
From Verif Require Import PyBase L_Base L_Sort M_Note M_Events M_Seq M_Seqs S_Seq S_Seqs L_Note L_Seq.
Open Scope Z_scope.

Lemma close_eq : forall a b, (a == b)%Q -> qclose_def a b = true.
Proof.
  intros a b E. unfold qclose_def, qclose. apply Qle_bool_iff.
  destruct (Qabsb_spec (a - b)) as [[? ->]|[? ->]];
  destruct (Qmaxb_max ((1 # 1000000000) * Qmaxb (Qabsb a) (Qabsb b)) 0) as [_ [M _]]; lra.
Qed.
Lemma far_sym : forall a b, far a b -> far b a.
Proof.
  unfold far; intros a b. destruct (Qabsb_spec (a - b)) as [[? ->]|[? ->]], (Qabsb_spec (b - a)) as [[? ->]|[? ->]];
  destruct (Qmaxb_spec (Qabsb a) (Qabsb b)) as [[? ->]|[? ->]], (Qmaxb_spec (Qabsb b) (Qabsb a)) as [[? ->]|[? ->]]; lra.
Qed.
Lemma Qabsb_nonneg : forall a, (0 <= Qabsb a)%Q.
Proof. intro a. destruct (Qabsb_spec a) as [[? ->]|[? ->]]; lra. Qed.
Lemma far_not_close : forall a b, far a b -> qclose_def a b = false.
Proof.
  unfold far; intros a b F. unfold qclose_def, qclose. apply Qle_bool_false.
  pose proof (Qabsb_nonneg a). destruct (Qmaxb_max (Qabsb a) (Qabsb b)) as [M1 [M2 _]].
  destruct (Qmaxb_spec ((1 # 1000000000) * Qmaxb (Qabsb a) (Qabsb b)) 0) as [[? ->]|[? ->]]; lra.
Qed.
Lemma apart_eqfar : forall a b, apart a b -> (a == b)%Q \/ far a b.
Proof. unfold apart; tauto. Qed.

(** sig_ltb when the times are equal or far. *)
Definition slex {A} (a b : sig A) : Prop := (g_time a < g_time b)%Q \/ ((g_time a == g_time b)%Q /\ g_seq a < g_seq b).
Lemma sig_ltb_iff : forall A (a b : sig A), (g_time a == g_time b)%Q \/ far (g_time a) (g_time b) ->
  (sig_ltb a b = true <-> slex a b).
Proof.
  intros A a b [E|F]; unfold sig_ltb, slex.
  - rewrite close_eq by auto. rewrite Z.ltb_lt. split; [auto|]. intros [H|H]; [lra|tauto].
  - rewrite (far_not_close _ _ F). rewrite Qltb_lt. split; auto. intros [H|[H _]]; auto.
    exfalso. unfold far in F. destruct (Qabsb_spec (g_time a - g_time b)) as [[? E]|[? E]]; rewrite E in F;
    pose proof (Qabsb_nonneg (g_time a)); destruct (Qmaxb_max (Qabsb (g_time a)) (Qabsb (g_time b))) as [M1 [M2 _]]; lra.
Qed.
Lemma sig_ltb_false : forall A (a b : sig A), (g_time a == g_time b)%Q \/ far (g_time a) (g_time b) ->
  (sig_ltb a b = false <-> ~ slex a b).
Proof.
  intros A a b H. rewrite <- (sig_ltb_iff A a b H). destruct (sig_ltb a b); split; intros; congruence || auto.
Qed.
Lemma slex_dec : forall A (a b : sig A), slex a b \/ ~ slex a b.
Proof.
  intros A a b. unfold slex. destruct (Qlt_le_dec (g_time a) (g_time b)) as [H|H]; [left; auto|].
  destruct (Qlt_le_dec (g_time b) (g_time a)) as [K|K]; [right; intros [?|[? _]]; lra|].
  destruct (Z_lt_le_dec (g_seq a) (g_seq b)) as [L|L]; [left; right; split; auto; lra|].
  right; intros [?|[_ ?]]; [lra|lia].
Qed.
Lemma slex_ntrans : forall A (a b c : sig A), ~ slex b a -> ~ slex c b -> ~ slex c a.
Proof.
  intros A a b c H K X. unfold slex in *.
  destruct (Qlt_le_dec (g_time b) (g_time a)) as [L1|L1]; [tauto|].
  destruct (Qlt_le_dec (g_time c) (g_time b)) as [L2|L2]; [tauto|].
  destruct X as [X|[X1 X2]]; [lra|].
  assert (~ g_seq b < g_seq a) by (intro; apply H; right; split; [lra|auto]).
  assert (~ g_seq c < g_seq b) by (intro; apply K; right; split; [lra|auto]). lia.
Qed.

Section T.
Context {A : Type} (T : list Q).
Hypothesis TO : times_ok T.
Definition inT (s : sig A) : Prop := exists t, In t T /\ g_time s = t.
Lemma inT_far : forall a b, inT a -> inT b -> (g_time a == g_time b)%Q \/ far (g_time a) (g_time b).
Proof. intros a b [t [Ht ->]] [u [Hu ->]]. apply apart_eqfar. apply TO; auto. Qed.
Lemma T_asym : forall a b, inT a -> inT b -> sig_ltb a b = true -> sig_ltb b a = false.
Proof.
  intros a b Ha Hb H. apply sig_ltb_iff in H; [|apply inT_far; auto].
  apply sig_ltb_false; [apply inT_far; auto|]. unfold slex in *. intros [X|[X Y]]; destruct H as [H|[H1 H2]]; lra || lia.
Qed.
Lemma T_ntrans : forall a b c, inT a -> inT b -> inT c -> sig_ltb b a = false -> sig_ltb c b = false -> sig_ltb c a = false.
Proof.
  intros a b c Ha Hb Hc H K. apply sig_ltb_false in H; [|apply inT_far; auto]. apply sig_ltb_false in K; [|apply inT_far; auto].
  apply sig_ltb_false; [apply inT_far; auto|]. eapply slex_ntrans; eauto.
Qed.
Lemma T_sorted_time : forall l, Forall inT l -> sorted_by sig_ltb l -> StronglySorted (fun a b => (g_time a <= g_time b)%Q) l.
Proof.
  intros l F S. induction S as [|x l S IH H]; constructor; inversion F; subst; auto.
  rewrite Forall_forall in *. intros y Hy. specialize (H y Hy). apply sig_ltb_false in H; [|apply inT_far; auto].
  unfold slex in H. apply Qnot_lt_le. tauto.
Qed.

(** the invariant of the list *)
Record sinv (d : A) (adds : list (Q * A)) (l : list (sig A)) : Prop := mkSinv {
  si_ex : exists f r, l = f :: r /\ (g_time f == 0)%Q /\ g_data f = at_zero d adds /\
          Permutation (map entry r) (later adds) /\
          (forall x, In x r -> (0 < g_time x)%Q /\ 1 <= g_seq x) /\
          0 <= g_seq f /\ (g_seq f = 0 <-> forall p, In p adds -> ~ (fst p == 0)%Q);
  si_T : Forall inT l;
  si_s : sorted_by sig_ltb l }.

Lemma at_zero_snoc : forall l (d : A) t x, at_zero d (l ++ [(t, x)]) = if Qeq_bool t 0 then x else at_zero d l.
Proof.
  induction l as [|[u y] l IH]; intros d t x; simpl; auto.
Qed.
Lemma sig_add_inv : forall d adds l t x, In t T -> In 0%Q T -> sinv d adds l -> sinv d (adds ++ [(t, x)]) (snd (sig_add l t x)).
Proof.
  intros d adds l t x Ht H0 I. destruct I as [[f [r [-> [F0 [FD [P [R [FS FZ]]]]]]]] IT IS].
  assert (Tn : (0 <= t)%Q) by (apply TO; auto).
  unfold sig_add. destruct (rev (f :: r)) as [|z rv] eqn:E.
  { exfalso. apply (f_equal (@List.length _)) in E. rewrite rev_length in E. discriminate. }
  assert (Hz : 0 <= g_seq z).
  { assert (In z (f :: r)) by (apply in_rev; rewrite E; left; auto). destruct H as [<-|H]; auto. apply R in H. lia. }
  set (v := mkSig t (g_seq z + 1) x).
  assert (Vt : inT v) by (exists t; auto).
  inversion IT as [|? ? Tf Tr]; subst.
  assert (LA : later (adds ++ [(t, x)]) = later adds ++ (if Qeq_bool t 0 then [] else [(t, x)])).
  { unfold later. rewrite filter_app. simpl. destruct (Qeq_bool t 0); auto. }
  destruct (near (g_time f) t) eqn:N; cbn [snd].
  - assert (t0 : (t == 0)%Q).
    { unfold near in N. apply Qltb_lt in N. destruct (proj2 TO 0%Q t H0 Ht) as [X|[X _]]; [lra|].
      exfalso. destruct (Qabsb_spec (g_time f - t)) as [[? E1]|[? E1]], (Qabsb_spec (0 - t)) as [[? E2]|[? E2]]; rewrite E1 in N; rewrite E2 in X; lra. }
    pose proof (proj2 (Qeq_bool_iff t 0) t0) as tb.
    constructor.
    + exists v, r. split; auto. split; auto. split; [rewrite at_zero_snoc, tb; auto|].
      split; [rewrite LA, tb, app_nil_r; auto|]. split; auto. simpl. split; [lia|]. split; [lia|].
      intro H. exfalso. apply (H (t, x)); auto. apply in_or_app; right; left; auto.
    + constructor; auto.
    + unfold sorted_by in *. inversion IS; subst. constructor; auto. rewrite Forall_forall in *. intros y Hy.
      apply sig_ltb_false; [apply inT_far; auto; exists t; auto|]. destruct (R y Hy). unfold slex; simpl. intros [?|[? _]]; lra.
  - assert (tp : (0 < t)%Q).
    { apply Qnot_le_lt. intro C. assert (t0 : (t == 0)%Q) by lra. unfold near in N. apply Qltb_ge in N.
      destruct (Qabsb_spec (g_time f - t)) as [[? E1]|[? E1]]; rewrite E1 in N; lra. }
    assert (tb : Qeq_bool t 0 = false).
    { destruct (Qeq_bool t 0) eqn:B; auto. apply Qeq_bool_iff in B. lra. }
    assert (fv : sig_ltb f v = true).
    { apply sig_ltb_iff; [apply inT_far; auto|]. left. simpl. lra. }
    destruct (insort_split sig_ltb inT T_ntrans (f :: r) v IT Vt IS) as [l1 [l2 [El [Ei [H1 H2]]]]].
    pose proof (insort_sorted sig_ltb inT T_asym T_ntrans (f :: r) v IT Vt IS) as SS.
    pose proof (insort_Forall sig_ltb inT (f :: r) v IT Vt) as FF.
    destruct l1 as [|f' l1].
    { exfalso. simpl in El. subst l2. inversion H2; subst. congruence. }
    injection El as <- El. rewrite Ei in *. constructor; auto.
    exists f, (l1 ++ v :: l2). split; auto. split; auto. split; [rewrite at_zero_snoc, tb; auto|].
    split. { rewrite LA, tb. rewrite <- P. rewrite El. rewrite !map_app. simpl. change (entry v) with (t, x).
             rewrite <- Permutation_middle. symmetry. rewrite <- Permutation_cons_append. reflexivity. }
    split. { intros y Hy. apply in_app_or in Hy as [Hy|[<-|Hy]].
      - apply R. rewrite El. apply in_or_app; auto. - simpl. split; [auto|lia]. - apply R. rewrite El. apply in_or_app; auto. }
    split; auto. rewrite FZ. split; intros H p Hp.
    + apply in_app_or in Hp as [Hp|[<-|[]]]; auto. simpl. lra.
    + apply H. apply in_or_app; auto.
Qed.
Lemma sig_run_inv : forall d adds, In 0%Q T -> (forall p, In p adds -> In (fst p) T) ->
  sinv d adds (sig_run (sig_default d) adds).
Proof.
  intros d adds H0. induction adds as [|[t x] adds IH] using rev_ind; intro H.
  - simpl. constructor.
    + exists (mkSig 0%Q 0 d), []. split; auto. split; [reflexivity|]. split; auto. split; auto.
      split; [intros ? []|]. simpl. split; [lia|]. split; [intros _ p []|auto].
    + constructor; [exists 0%Q; auto|constructor].
    + constructor; constructor.
  - unfold sig_run. rewrite fold_left_app. simpl. apply sig_add_inv; auto.
    + apply (H (t, x)). apply in_or_app; right; left; auto.
    + apply IH. intros; apply H. apply in_or_app; auto.
Qed.
End T.

Definition tlist {A} (adds : list (Q * A)) : list Q := 0%Q :: map fst adds.
Lemma run_inv : forall A (d : A) adds, times_ok (tlist adds) -> sinv (tlist adds) d adds (sig_run (sig_default d) adds).
Proof.
  intros A d adds TO. apply sig_run_inv; auto. - left; auto. - intros p Hp. right. apply in_map; auto.
Qed.
Lemma sig_list_spec : forall A (d : A) adds, times_ok (0%Q :: map fst adds) ->
  let l := sig_run (sig_default d) adds in
  exists f r, l = f :: r /\ entry f = (g_time f, at_zero d adds) /\ (g_time f == 0)%Q /\
    Permutation (map entry r) (later adds) /\ StronglySorted (fun a b => (g_time a <= g_time b)%Q) l /\
    (forall x, In x r -> (0 < g_time x)%Q).
Proof.
  intros A d adds TO. destruct (run_inv A d adds TO) as [[f [r [E [F0 [FD [P [R _]]]]]]] IT IS]. cbv zeta.
  exists f, r. split; auto. split; [unfold entry; rewrite FD; auto|]. split; auto. split; auto. split; [eapply T_sorted_time; eauto|].
  intros x Hx. apply R; auto.
Qed.

(** lookup *)
Lemma time_split : forall A (l : list (sig A)) t, StronglySorted (fun a b => (g_time a <= g_time b)%Q) l ->
  exists p q, l = p ++ q /\ Forall (fun x => (g_time x < t)%Q) p /\ Forall (fun x => (t <= g_time x)%Q) q.
Proof.
  intros A l t S. induction S as [|x l S IH H].
  - exists [], []. auto.
  - destruct (Qlt_le_dec (g_time x) t) as [L|L].
    + destruct IH as [p [q [-> [H1 H2]]]]. exists (x :: p), q. auto.
    + exists [], (x :: l). split; auto. split; auto. constructor; auto.
      eapply Forall_impl; [|exact H]. simpl. intros; lra.
Qed.
Lemma nth_app_mid : forall A (p : list A) e q d, nth (List.length p) (p ++ e :: q) d = e.
Proof. intros. rewrite app_nth2, Nat.sub_diag by lia. reflexivity. Qed.
Lemma probe_lt : forall A (e : sig A) t dflt, (t == g_time e)%Q \/ far t (g_time e) -> 1 <= g_seq e ->
  (sig_ltb (mkSig t 0 dflt) e = true <-> (t <= g_time e)%Q).
Proof.
  intros A e t dflt H S. rewrite sig_ltb_iff by auto. unfold slex; simpl. split.
  - intros [L|[L _]]; lra.
  - intro L. destruct (Qlt_le_dec t (g_time e)); auto. right. split; [lra|lia].
Qed.
Lemma lookup_core : forall A (d : A) adds (dflt : A) t, times_ok (0%Q :: map fst adds) ->
  let l := sig_run (sig_default d) adds in
  (forall u, In u (0%Q :: map fst adds) -> (u == t)%Q \/ far u t) ->
  exists z k, l = z :: k /\
  let r := at_or_last l (bisect_right sig_ltb l (mkSig t 0 dflt)) z in
  ((0 < t)%Q -> last_before l t r) /\
  ((t == 0)%Q -> (forall p, In p adds -> ~ (fst p == 0)%Q) -> g_data r = d) /\
  ((t == 0)%Q -> (exists p, In p adds /\ (fst p == 0)%Q) -> exists l', l = l' ++ [r]) /\
  ((t < 0)%Q -> exists l', l = l' ++ [r]).
Proof.
  intros A d adds dflt t TO l Far. destruct (run_inv A d adds TO) as [[f [r [E [F0 [FD [P [R [FS FZ]]]]]]]] IT IS].
  fold l in E, IT, IS. exists f, r. split; auto. cbv zeta.
  pose proof (T_sorted_time (tlist adds) TO l IT IS) as ST.
  assert (PF : forall e, In e l -> (t == g_time e)%Q \/ far t (g_time e)).
  { intros e He. rewrite Forall_forall in IT. destruct (IT e He) as [u [Hu ->]]. destruct (Far u Hu) as [X|X]; [left; lra|right; apply far_sym; auto]. }
  assert (Last : exists l', l = l' ++ [last l f]).
  { rewrite E. destruct (@exists_last _ (f :: r)) as [l' [y Ey]]; [discriminate|]. exists l'. rewrite Ey, last_last. auto. }
  assert (Zero : (forall e, In e l -> sig_ltb (mkSig t 0 dflt) e = true) ->
    at_or_last l (bisect_right sig_ltb l (mkSig t 0 dflt)) f = last l f).
  { intro H. rewrite (bisect_right_app sig_ltb [] l); auto. apply Forall_forall; auto. }
  split; [|split; [|split]].
  - intro Ht. destruct (time_split A l t ST) as [p [q [El [Hp Hq]]]].
    destruct (@exists_last _ p) as [p' [e Ep]].
    { intros ->. simpl in El. subst q. rewrite E in Hq. inversion Hq; subst. lra. }
    assert (B : bisect_right sig_ltb l (mkSig t 0 dflt) = List.length p).
    { rewrite El. apply bisect_right_app.
      - rewrite Forall_forall in *. intros y Hy. apply sig_ltb_false; [apply PF; rewrite El; apply in_or_app; auto|].
        specialize (Hp y Hy). unfold slex; simpl. intros [?|[? _]]; lra.
      - rewrite Forall_forall in *. intros y Hy. apply probe_lt; [apply PF; rewrite El; apply in_or_app; auto| |auto].
        assert (In y l) by (rewrite El; apply in_or_app; auto). rewrite E in H. destruct H as [<-|H]; [|apply R; auto].
        specialize (Hq f Hy). lra. }
    rewrite B. rewrite Ep in *. rewrite app_length, Nat.add_1_r. cbn [at_or_last].
    rewrite El, <- app_assoc. simpl. rewrite nth_app_mid. exists p', q. auto.
  - intros t0 NZ. apply FZ in NZ as Sf.
    assert (B : bisect_right sig_ltb l (mkSig t 0 dflt) = 1%nat).
    { rewrite E. apply (bisect_right_app sig_ltb [f] r).
      - constructor; auto. apply sig_ltb_false; [apply PF; rewrite E; left; auto|]. unfold slex; simpl. intros [?|[_ ?]]; [lra|lia].
      - rewrite Forall_forall. intros y Hy. destruct (R y Hy). apply probe_lt; [apply PF; rewrite E; right; auto|auto|lra]. }
    rewrite B, E. cbn [at_or_last nth]. rewrite FD. clear - NZ.
    induction adds as [|[u y] adds IH]; auto. simpl. destruct (Qeq_bool u 0) eqn:B.
    + exfalso. apply (NZ (u, y)); [left; auto|]. apply Qeq_bool_iff; auto.
    + apply IH. intros; apply NZ; right; auto.
  - intros t0 [p [Hp Hz]]. rewrite Zero; auto. intros e He. apply probe_lt; auto.
    + rewrite E in He. destruct He as [<-|He]; [|apply R; auto].
      assert (g_seq f <> 0) by (intro X; apply (proj1 FZ X p); auto). lia.
    + rewrite E in He. destruct He as [<-|He]; [lra|]. destruct (R e He). lra.
  - intros tn. rewrite Zero; auto. intros e He. apply sig_ltb_iff; auto. left. simpl.
    rewrite E in He. destruct He as [<-|He]; [lra|]. destruct (R e He). lra.
Qed.
Lemma sig_at_spec : forall A (d : A) adds early none dflt t, times_ok (0%Q :: map fst adds) ->
  let l := sig_run (sig_default d) adds in
  ((t < 0)%Q -> sig_at l early none dflt t = early) /\
  ((forall u, In u (0%Q :: map fst adds) -> (u == t)%Q \/ far u t) ->
    ((0 < t)%Q -> exists e, last_before l t e /\ sig_at l early none dflt t = g_data e) /\
    ((t == 0)%Q -> (forall p, In p adds -> ~ (fst p == 0)%Q) -> sig_at l early none dflt t = d) /\
    ((t == 0)%Q -> (exists p, In p adds /\ (fst p == 0)%Q) ->
       exists l' e, l = l' ++ [e] /\ sig_at l early none dflt t = g_data e)).
Proof.
  intros A d adds early none dflt t TO l. split.
  - intro H. unfold sig_at. rewrite (proj2 (Qltb_lt t 0) H). auto.
  - intro Far. destruct (lookup_core A d adds dflt t TO Far) as [z [k [E [H1 [H2 [H3 _]]]]]]. fold l in E, H1, H2, H3.
    assert (X : (0 <= t)%Q -> sig_at l early none dflt t = g_data (at_or_last l (bisect_right sig_ltb l (mkSig t 0 dflt)) z)).
    { intro H. unfold sig_at. rewrite (proj2 (Qltb_ge t 0) H). rewrite E. auto. }
    split; [|split].
    + intro H. rewrite X by lra. eauto.
    + intros H N. rewrite X by lra. auto.
    + intros H N. rewrite X by lra. destruct (H3 H N) as [l' El]. eauto.
Qed.
Lemma key_at_spec : forall A (d : A) adds none dflt t, times_ok (0%Q :: map fst adds) ->
  let l := sig_run (sig_default d) adds in
  ((0 <= t)%Q -> forall early none', key_at l none dflt t = sig_at l early none' dflt t) /\
  ((t < 0)%Q -> (forall u, In u (0%Q :: map fst adds) -> far u t) -> exists l' e, l = l' ++ [e] /\ key_at l none dflt t = g_data e).
Proof.
  intros A d adds none dflt t TO l. split.
  - intros H early none'. destruct (sig_list_spec A d adds TO) as [f [r [E _]]]. fold l in E. unfold key_at, sig_at.
    rewrite (proj2 (Qltb_ge t 0) H), E. auto.
  - intros H Far. destruct (lookup_core A d adds dflt t TO) as [z [k [E [_ [_ [_ H4]]]]]]; [intros; right; auto|]. fold l in E, H4.
    destruct (H4 H) as [l' El]. exists l'. eexists; split; [exact El|]. unfold key_at. rewrite E at 1. reflexivity.
Qed.

(** slices *)
Lemma sort_sorted_id : forall A (lt : A -> A -> bool) l, sorted_by lt l -> py_sort lt l = l.
Proof.
  intros A lt l S. induction S as [|x l S IH H]; auto. simpl. fold (py_sort lt l). rewrite IH.
  destruct l as [|y l]; auto. simpl. inversion H; subst. rewrite H2. auto.
Qed.
Definition upto {A} (u : option Q) (s : sig A) : Prop := match u with Some b => (g_time s <= b)%Q | None => True end.
Lemma upto_iff : forall A u (s : sig A),
  match u with Some b => negb (Qltb b (g_time s)) | None => true end = true <-> match u with Some b => (g_time s <= b)%Q | None => True end.
Proof. intros A [b|] s; [|tauto]. rewrite negb_true_iff, Qltb_ge. reflexivity. Qed.
Lemma slices_spec : forall A (d : A) adds u, times_ok (0%Q :: map fst adds) ->
  let l := sig_run (sig_default d) adds in
  let keep (s : sig A) := match u with Some b => (g_time s <= b)%Q | None => True end in
  selects keep l (slice_time l u) /\ selects keep l (slice_key l u) /\
  (~ (exists b, u = Some b /\ (b == 0)%Q) -> selects keep l (slice_tempo l u)) /\
  (forall b, (b == 0)%Q -> slice_tempo l (Some b) = l).
Proof.
  intros A d adds u TO l keep. destruct (run_inv A d adds TO) as [_ IT IS]. fold l in IT, IS.
  pose proof (T_sorted_time (tlist adds) TO l IT IS) as ST.
  split; [|split; [|split]].
  - unfold slice_time. rewrite sort_sorted_id by auto. apply selects_filter. intro; apply upto_iff.
  - unfold slice_key. rewrite sort_sorted_id. { apply selects_filter. intro; apply upto_iff. }
    clear - ST. unfold sorted_by. induction ST as [|x l ST IH H]; constructor; auto.
    eapply Forall_impl; [|exact H]. intros y Hy. apply Qltb_ge. exact Hy.
  - intro N. unfold slice_tempo. apply selects_filter. intro s. unfold keep. destruct u as [b|]; [|tauto].
    destruct (Qeq_bool b 0) eqn:B; [exfalso; apply N; exists b; split; auto; apply Qeq_bool_iff; auto|].
    simpl. rewrite negb_true_iff, Qltb_ge. reflexivity.
  - intros b Hb. unfold slice_tempo. rewrite (proj2 (Qeq_bool_iff b 0) Hb). simpl. clear.
    induction l; simpl; congruence.
Qed.

(** initial tempo *)
Lemma it_run_cached : forall ops l v, fst (it_run (l, Some v) ops) = map (fun o => match o with ItAsk => Some v | _ => None end) ops.
Proof.
  induction ops as [|o ops IH]; intros l v; auto. cbn [it_run map]. destruct o; cbn [it_step].
  - destruct (it_run (snd (sig_add l t qpm), Some v) ops) as [a b] eqn:E. simpl. f_equal.
    specialize (IH (snd (sig_add l t qpm)) v). rewrite E in IH. exact IH.
  - destruct (it_run (l, Some v) ops) as [a b] eqn:E. simpl. f_equal. specialize (IH l v). rewrite E in IH. exact IH.
Qed.
Lemma initial_tempo_spec : forall adds ops,
  let l := sig_run (sig_default (inject_Z DEFAULT_QPM)) adds in
  fst (it_run (l, None) (ItAsk :: ops)) =
  Some (first_qpm l) :: map (fun o => match o with ItAsk => Some (first_qpm l) | _ => None end) ops.
Proof.
  intros adds ops l. cbn [it_run it_step]. destruct (it_run (l, Some (first_qpm l)) ops) as [a b] eqn:E. simpl. f_equal.
  pose proof (it_run_cached ops l (first_qpm l)) as H. rewrite E in H. exact H.
Qed.
Lemma initial_tempo_value : forall adds, times_ok (0%Q :: map fst adds) ->
  first_qpm (sig_run (sig_default (inject_Z DEFAULT_QPM)) adds) = at_zero (inject_Z DEFAULT_QPM) adds.
Proof.
  intros adds TO. destruct (sig_list_spec Q (inject_Z DEFAULT_QPM) adds TO) as [f [r [E [EF [F0 _]]]]].
  rewrite E. unfold first_qpm. cbn [find]. rewrite (proj2 (Qeq_bool_iff _ _) F0). unfold entry in EF. congruence.
Qed.
Lemma is_sorted_spec : forall l, is_sorted l = true <-> StronglySorted Qle l.
Proof.
  induction l as [|a l IH]; [split; [constructor|auto]|]. destruct l as [|b l].
  - split; [constructor; constructor|auto].
  - change (is_sorted (a :: b :: l)) with (if Qltb b a then false else is_sorted (b :: l)).
    destruct (Qltb b a) eqn:E.
    + split; [discriminate|]. intro S. inversion S as [|? ? _ F]; subst. inversion F; subst. apply Qltb_lt in E. lra.
    + apply Qltb_ge in E. rewrite IH. split.
      * intro S. constructor; auto. constructor; auto. inversion S; subst. eapply Forall_impl; [|eassumption]. intros c Hc. simpl in Hc. lra.
      * intro S. inversion S; auto.
Qed.
