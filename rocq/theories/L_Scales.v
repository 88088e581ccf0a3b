From Coq Require Import Sorted Permutation Ascii Lia DecimalString.
From Verif Require Import PyBase L_Base L_Note M_Chord L_Chord M_Experiments L_Experiments L_Reader3 M_Scales S_Scales.
Open Scope Z_scope.

(* names *)
Lemma spelled_cases : forall k s, spelled k s -> In (s, k) (combine note_names [0;1;2;3;4;5;6;7;8;9;10;11]).
Proof.
  intros k s [H|[l [j [H [N1 [N2 [-> ->]]]]]]].
  - unfold natural in H. cbn in *. intuition congruence.
  - unfold natural in H. cbn in H.
    repeat (destruct H as [H|H]; [injection H as <- <-; cbn; try (exfalso; lia); tauto|]). destruct H.
Qed.
Lemma cases_spelled : forall k s, In (s, k) (combine note_names [0;1;2;3;4;5;6;7;8;9;10;11]) -> spelled k s.
Proof.
  intros k s H. cbn in H.
  assert (N : forall l j, natural l j -> j <> 4 -> j <> 11 -> spelled (j + 1) (l ++ "#")) by (intros; right; exists l, j; auto).
  repeat (destruct H as [H|H]; [injection H as <- <-; first [left; cbn; tauto | apply (N "C"%string 0); cbn; [tauto|lia|lia] | apply (N "D"%string 2); cbn; [tauto|lia|lia] | apply (N "F"%string 5); cbn; [tauto|lia|lia] | apply (N "G"%string 7); cbn; [tauto|lia|lia] | apply (N "A"%string 9); cbn; [tauto|lia|lia]]|]).
  destruct H.
Qed.
Lemma spelled_iff : forall k s, spelled k s <-> 0 <= k <= 11 /\ note_name k = Ok s.
Proof.
  intros k s. split.
  - intros H. apply spelled_cases in H. cbn in H. repeat (destruct H as [H|H]; [injection H as <- <-; split; [lia|reflexivity]|]). destruct H.
  - intros [R H]. apply cases_spelled. cbn.
    assert (K : k = 0 \/ k = 1 \/ k = 2 \/ k = 3 \/ k = 4 \/ k = 5 \/ k = 6 \/ k = 7 \/ k = 8 \/ k = 9 \/ k = 10 \/ k = 11) by lia.
    repeat (destruct K as [K|K]; [subst k; cbv in H; injection H as <-; tauto|]). subst k; cbv in H; injection H as <-; tauto.
Qed.
Lemma name_ok : forall k, 0 <= k <= 11 -> exists s, note_name k = Ok s /\ spelled k s.
Proof.
  intros k R.
  assert (K : k = 0 \/ k = 1 \/ k = 2 \/ k = 3 \/ k = 4 \/ k = 5 \/ k = 6 \/ k = 7 \/ k = 8 \/ k = 9 \/ k = 10 \/ k = 11) by lia.
  assert (X : exists s, note_name k = Ok s) by (repeat (destruct K as [K|K]; [subst k; eexists; reflexivity|]); subst k; eexists; reflexivity).
  destruct X as [s X]. exists s. split; auto. apply spelled_iff. auto.
Qed.
Lemma spelled_fun : forall k s s', spelled k s -> spelled k s' -> s = s'.
Proof. intros k s s' A B. apply spelled_iff in A, B. destruct A as [_ A], B as [_ B]. rewrite A in B. injection B as ->. reflexivity. Qed.
Lemma spelled_inj : forall k k' s, spelled k s -> spelled k' s -> k = k'.
Proof.
  intros k k' s A B. apply spelled_cases in A, B. cbn in A, B.
  repeat (destruct A as [A|A]; [injection A as <- <-; repeat (destruct B as [B|B]; [injection B as B1; try discriminate B1; congruence|]); destruct B|]). destruct A.
Qed.
Lemma spelled_pitch : forall p s, spelled p s <-> pitch_of_name s = Some p.
Proof.
  intros p s. split.
  - intros H. apply spelled_cases in H. cbn in H. repeat (destruct H as [H|H]; [injection H as <- <-; reflexivity|]). destruct H.
  - intros H. apply cases_spelled. unfold pitch_of_name in H; apply (dict_get_In String.eqb String.eqb_spec) in H. cbn in H. cbn. intuition congruence.
Qed.
Lemma spelled_valid : forall s, valid_name s = true <-> exists p, spelled p s.
Proof.
  intros s. unfold valid_name. rewrite existsb_exists. split.
  - intros [x [I E]]. apply String.eqb_eq in E. subst x. cbn in I.
    assert (X : exists p, pitch_of_name s = Some p) by (repeat (destruct I as [<-|I]; [eexists; reflexivity|]); destruct I).
    destruct X as [p X]. exists p. apply spelled_pitch; auto.
  - intros [p H]. exists s. split; [|apply String.eqb_refl]. apply spelled_cases in H. cbn in *. intuition congruence.
Qed.
Lemma spelled_index : forall p s, spelled p s <-> note_index s = Ok p.
Proof.
  intros p s. split.
  - intros H. apply spelled_cases in H. cbn in H. repeat (destruct H as [H|H]; [injection H as <- <-; reflexivity|]). destruct H.
  - intros H. apply cases_spelled. unfold note_index, note_names in H. cbn [index_of] in H. cbn.
    repeat match type of H with context [String.eqb ?a s] => destruct (String.eqb_spec a s) as [X|?]; [subst s; apply Ok_inj in H; subst p; cbn; repeat first [left; reflexivity | right]|] end.  discriminate.
Qed.
Lemma spelled_range : forall p s, spelled p s -> 0 <= p <= 11.
Proof. intros p s H. apply spelled_iff in H. tauto. Qed.
Lemma upper_spelled : forall p s, spelled p s -> upper s = s.
Proof. intros p s H. apply spelled_cases in H. cbn in H. repeat (destruct H as [H|H]; [injection H as <- <-; reflexivity|]). destruct H. Qed.
Lemma index_bad : forall s, (forall p, ~ spelled p s) -> note_index s = Err ValueError.
Proof.
  intros s H. destruct (note_index s) as [p|e] eqn:E; [apply spelled_index in E; destruct (H p E)|].
  revert E. unfold note_index. generalize 0. induction note_names as [|x r IH]; intros k; cbn; [congruence|]. destruct (String.eqb x s); [discriminate|apply IH].
Qed.

(* each *)
Lemma each_ok : forall A B (f : A -> res B) g l, (forall x, In x l -> f x = Ok (g x)) -> each f l = Ok (map g l).
Proof.
  intros A B f g. induction l as [|x r IH]; intros H; cbn; auto. rewrite (H x) by (left; auto). cbn. rewrite IH by (intros; apply H; right; auto). reflexivity.
Qed.
Lemma each_app_eq : forall A B (f g : A -> res B) l, (forall x, In x l -> f x = g x) -> each f l = each g l.
Proof. intros A B f g. induction l as [|x r IH]; intros H; cbn; auto. rewrite (H x) by (left; auto). rewrite IH by (intros; apply H; right; auto). reflexivity. Qed.

(* sorting *)
Lemma semitones_ok : forall x, 0 <= x <= 12 -> semitones x = Ok x.
Proof.
  intros x R. assert (K : x = 0 \/ x = 1 \/ x = 2 \/ x = 3 \/ x = 4 \/ x = 5 \/ x = 6 \/ x = 7 \/ x = 8 \/ x = 9 \/ x = 10 \/ x = 11 \/ x = 12) by lia.
  repeat (destruct K as [K|K]; [subst x; reflexivity|]). subst x; reflexivity.
Qed.
Lemma semitones_bad : forall x, ~ 0 <= x <= 12 -> semitones x = Err KeyError.
Proof.
  intros x R. unfold semitones. destruct (dict_get Z.eqb x intervals) as [v|] eqn:E; auto. apply (dict_get_In Z.eqb Z.eqb_spec) in E.
  cbn in E. unfold P1, m2, M2, m3, M3, P4, A4, P5, A5, M6, m7, M7, P8 in E. repeat (destruct E as [E|E]; [injection E as <- <-; lia|]). destruct E.
Qed.
Lemma fst_sorted : forall l, StronglySorted (fun a b : Z * Z => key_lt b a = false) (map (fun x => (x, x)) l) -> NoDup l -> StronglySorted (fun x y => (x <? y) = true) l.
Proof.
  induction l as [|x r IH]; intros S N; constructor; inversion S as [|? ? S1 S2]; inversion N; subst; auto.
  rewrite Forall_forall in *. intros y I. assert (K : key_lt (y, y) (x, x) = false) by (apply S2; apply in_map_iff; eauto). unfold key_lt in K. cbn in K.
  apply Z.ltb_ge in K. apply Z.ltb_lt. assert (x <> y) by congruence. lia.
Qed.
Lemma sorted_perm : forall l m, Permutation m l -> Forall (fun x => 0 <= x <= 12) m -> StronglySorted (fun x y => (x <? y) = true) m -> NoDup m -> sorted_intervals l = Ok m.
Proof.
  intros l m P R S N. unfold sorted_intervals. rewrite Forall_forall in R.
  rewrite (each_ok _ _ _ (fun x => (x, x))). 2:{ intros x I. rewrite semitones_ok; [reflexivity|]. apply R. eapply Permutation_in; [apply Permutation_sym; exact P|exact I]. }
  cbn [bind]. f_equal. pose proof (py_sort_perm key_lt (map (fun x => (x, x)) l)) as PP.
  assert (SS : StronglySorted (fun a b => key_lt b a = false) (py_sort key_lt (map (fun x => (x, x)) l))).
  { apply py_sort_sorted; unfold key_lt; intros; rewrite ?Z.ltb_lt, ?Z.ltb_ge in *; lia. }
  set (q := py_sort key_lt (map (fun x => (x, x)) l)) in *. assert (Q : q = map (fun x => (x, x)) (map fst q)).
  { rewrite map_map. rewrite <- map_id at 1. apply map_ext_in. intros [a b] I. apply (Permutation_in _ (Permutation_sym PP)) in I. apply in_map_iff in I as [x [E _]]. injection E as <- <-. reflexivity. }
  assert (PF : Permutation l (map fst q)). { apply (Permutation_map fst) in PP. rewrite map_map in PP. cbn in PP. rewrite map_id in PP. exact PP. }
  apply sorted_unique; auto.
  - apply fst_sorted; [rewrite <- Q; exact SS|]. eapply Permutation_NoDup; [|exact N]. eapply Permutation_trans; eauto.
  - intros x. split; intros I.
    + eapply Permutation_in; [|exact I]. apply Permutation_sym. eapply Permutation_trans; eauto.
    + eapply Permutation_in; [|exact I]. eapply Permutation_trans; eauto.
Qed.
Lemma scale_sorted : forall it t, iterates it -> sorted_intervals (it (scale_intervals t)) = Ok (map (degree t) [0; 1; 2; 3; 4; 5; 6]%nat).
Proof.
  intros it t I. apply sorted_perm.
  - eapply Permutation_trans; [|apply I]. destruct t; apply Permutation_refl.
  - destruct t; cbv; repeat constructor; intros; discriminate.
  - destruct t; cbv; repeat constructor.
  - destruct t; cbv; repeat constructor; cbn; intuition discriminate.
Qed.
Lemma degree_range : forall t i, (i < 7)%nat -> 0 <= degree t i <= 11.
Proof. intros t i L. destruct t; do 7 (destruct i as [|i]; [cbv; split; discriminate|]); lia. Qed.
Lemma notes_ok : forall it t p, iterates it -> exists ns, notes_on p (it (scale_intervals t)) = Ok ns /\ List.length ns = 7%nat /\
  forall i, (i < 7)%nat -> exists n, nth_error ns i = Some n /\ spelled ((p + degree t i) mod 12) n.
Proof.
  intros it t p I. unfold notes_on. rewrite scale_sorted by auto. cbn [bind].
  set (nm := fun k => match note_name k with Ok s => s | Err _ => EmptyString end).
  assert (NM : forall k, note_name (k mod 12) = Ok (nm (k mod 12)) /\ spelled (k mod 12) (nm (k mod 12))).
  { intros k. destruct (name_ok (k mod 12)) as [s [A B]]; [pose proof (Z.mod_pos_bound k 12); lia|]. unfold nm. rewrite A. auto. }
  rewrite (each_ok _ _ _ (fun x => nm ((p + x) mod 12))).
  - eexists; split; [reflexivity|]. split; [reflexivity|]. intros i L. rewrite !nth_error_map.
    do 7 (destruct i as [|i]; [cbn [nth_error option_map]; eexists; split; [reflexivity|apply NM]|]). lia.
  - intros x IX. rewrite semitones_ok.
    + cbn [bind]. apply NM.
    + apply in_map_iff in IX as [i [<- Ii]]. assert (L : (i < 7)%nat) by (cbn in Ii; lia). pose proof (degree_range t i L). lia.
Qed.

(* scales by name *)
Lemma by_value_iff : forall s t, by_value s = Ok t <-> s = scale_value t.
Proof.
  intros s t. unfold by_value, pick. split.
  - intros H. destruct (find _ scale_types) as [t'|] eqn:F; [|discriminate]. injection H as ->. apply find_some in F as [_ F]. apply String.eqb_eq in F. auto.
  - intros ->. destruct t; reflexivity.
Qed.
Lemma by_name_iff : forall s t, by_name s = Ok t <-> s = scale_name t.
Proof.
  intros s t. unfold by_name, pick. split.
  - intros H. destruct (find _ scale_types) as [t'|] eqn:F; [|discriminate]. injection H as ->. apply find_some in F as [_ F]. apply String.eqb_eq in F. auto.
  - intros ->. destruct t; reflexivity.
Qed.
Lemma scale_arg_iff : forall a t, (match a with SStr s => by_value s | SType t => Ok t end) = Ok t <-> designates a t.
Proof.
  intros [s|u] t; unfold designates; split.
  - intros H. apply by_value_iff in H. subst. auto.
  - intros [H|H]; [discriminate|]. injection H as ->. apply by_value_iff. reflexivity.
  - intros H. injection H as ->. auto.
  - intros [H|H]; [injection H as ->; reflexivity|discriminate].
Qed.
Lemma scale_arg_err : forall a e, (match a with SStr s => by_value s | SType t => Ok t end) = Err e -> e = ValueError /\ forall t, ~ designates a t.
Proof.
  intros a e H. split.
  - destruct a as [s|u]; [|discriminate]. unfold by_value in H. destruct (pick _ _); [discriminate|congruence].
  - intros t D. apply scale_arg_iff in D. congruence.
Qed.

Lemma notes_scale_ok : forall it t r s a, iterates it -> spelled r s -> designates a t ->
  exists ns, notes_from_scale it (RStr s) a = Ok ns /\ List.length ns = 7%nat /\
  forall i, (i < 7)%nat -> exists n, nth_error ns i = Some n /\ spelled ((r + degree t i) mod 12) n.
Proof.
  intros it t r s a I S D. unfold notes_from_scale. rewrite (proj2 (scale_arg_iff a t) D). cbn [bind].
  rewrite (upper_spelled r s S). assert (V : valid_name s = true) by (apply spelled_valid; eauto). rewrite V. cbn [negb].
  rewrite (proj1 (spelled_index r s) S). cbn [bind intervals_from_scale]. apply notes_ok; auto.
Qed.
Lemma notes_scale_iff : forall it r a, iterates it ->
  ((exists ns, notes_from_scale it r a = Ok ns) <-> (exists s p t, r = RStr s /\ spelled p s /\ designates a t)) /\
  (forall e, notes_from_scale it r a = Err e -> e = ValueError).
Proof.
  intros it r a I.
  assert (K : (exists s p t, r = RStr s /\ spelled p s /\ designates a t) \/ (notes_from_scale it r a = Err ValueError /\ ~ exists s p t, r = RStr s /\ spelled p s /\ designates a t)).
  { unfold notes_from_scale. destruct (match a with SStr s => by_value s | SType t => Ok t end) as [t|e] eqn:A.
    2:{ apply scale_arg_err in A as [-> A]. right. split; [reflexivity|]. intros [s [p [t [_ [_ D]]]]]. exact (A t D). }
    cbn [bind]. destruct r as [z|s].
    - right. split; [destruct (negb _); reflexivity|]. intros [s [p [u [H _]]]]. discriminate.
    - destruct (note_index s) as [p|e] eqn:NI.
      + left. exists s, p, t. split; auto. split; [apply spelled_index; auto|apply scale_arg_iff; auto].
      + right. split.
        * destruct (negb (valid_name (upper s))); auto. assert (e = ValueError).
          { assert (NS : forall p, ~ spelled p s) by (intros p P; apply spelled_index in P; congruence). apply index_bad in NS. congruence. } subst e. reflexivity.
        * intros [s' [p [u [E [S _]]]]]. injection E as <-. apply spelled_index in S. congruence. }
  destruct K as [[s [p [t [-> [S D]]]]]|[K N]].
  - destruct (notes_scale_ok it t p s a I S D) as [ns [E _]]. split; [split; intros _; [exists s, p, t; auto|exists ns; auto]|]. intros e H. congruence.
  - split; [split; [intros [ns H]; congruence|intros H; destruct (N H)]|]. intros e H. congruence.
Qed.
Lemma scales_table : forall t, scales t = map (degree t) [0; 1; 2; 3; 4; 5; 6]%nat /\ degree t 7 = 12 /\ Permutation (scale_intervals t) (scales t).
Proof. intros t. split; [destruct t; reflexivity|]. split; [destruct t; reflexivity|]. destruct t; apply Permutation_refl. Qed.
Lemma notes_transpose : forall it r1 r2 s1 s2 a l1 l2 i n1 n2 c1, iterates it -> spelled r1 s1 -> spelled r2 s2 ->
  notes_from_scale it (RStr s1) a = Ok l1 -> notes_from_scale it (RStr s2) a = Ok l2 -> nth_error l1 i = Some n1 -> nth_error l2 i = Some n2 ->
  spelled c1 n1 -> spelled ((c1 + (r2 - r1)) mod 12) n2.
Proof.
  intros it r1 r2 s1 s2 a l1 l2 i n1 n2 c1 I S1 S2 N1 N2 E1 E2 C1.
  assert (D : exists t, designates a t). { destruct (proj1 (proj1 (notes_scale_iff it (RStr s1) a I)) (ex_intro _ l1 N1)) as [_ [_ [t [_ [_ D]]]]]. eauto. }
  destruct D as [t D]. destruct (notes_scale_ok it t r1 s1 a I S1 D) as [l1' [F1 [L1 G1]]]. rewrite F1 in N1. injection N1 as ->.
  destruct (notes_scale_ok it t r2 s2 a I S2 D) as [l2' [F2 [L2 G2]]]. rewrite F2 in N2. injection N2 as ->.
  assert (L : (i < 7)%nat) by (rewrite <- L1; apply nth_error_Some; congruence).
  destruct (G1 i L) as [m1 [A1 B1]]. destruct (G2 i L) as [m2' [A2 B2]]. rewrite A1 in E1. injection E1 as ->. rewrite A2 in E2. injection E2 as ->.
  assert (C : c1 = (r1 + degree t i) mod 12) by (eapply spelled_inj; eauto). subst c1.
  replace (((r1 + degree t i) mod 12 + (r2 - r1)) mod 12) with ((r2 + degree t i) mod 12); auto.
  rewrite Zplus_mod_idemp_l. f_equal. lia.
Qed.

(* pitches *)
Lemma str_no_sharp : forall z c r, py_str z = String c r -> c <> "#"%char.
Proof.
  intros z c r H. unfold py_str, NilZero.string_of_int in H. destruct (Z.to_int z) as [d|d]; [|injection H as <- _; discriminate].
  unfold NilZero.string_of_uint in H. destruct d; cbn in H; injection H as <- _; discriminate.
Qed.
Lemma str_inj : forall a b, py_str a = py_str b -> a = b.
Proof. intros a b H. pose proof (py_int_str a) as A. rewrite H, py_int_str in A. congruence. Qed.
Lemma pitch_name_ok : forall p, exists n, spelled (p mod 12) n /\ pitch_to_note p = Ok (n ++ py_str (p / 12))%string.
Proof.
  intros p. destruct (name_ok (p mod 12)) as [n [A B]]; [pose proof (Z.mod_pos_bound p 12); lia|]. exists n. split; auto. unfold pitch_to_note.
  replace (dict_get Z.eqb (p mod 12) pitch_names) with (Some n); auto. apply spelled_cases in B. cbn in B.
  repeat (destruct B as [B|B]; [injection B as <- E; rewrite <- E; reflexivity|]). destruct B.
Qed.
Lemma append_len1 : forall c r, (String c r = String c EmptyString ++ r)%string.
Proof. reflexivity. Qed.
Lemma pitch_inj : forall p q s, pitch_to_note p = Ok s -> pitch_to_note q = Ok s -> p = q.
Proof.
  intros p q s P Q. destruct (pitch_name_ok p) as [n [N1 N2]]. destruct (pitch_name_ok q) as [m [M1 M2]]. rewrite N2 in P. rewrite M2 in Q. injection P as P. injection Q as Q. rewrite <- Q in P. clear Q s N2 M2.
  assert (E : n = m /\ py_str (p / 12) = py_str (q / 12)).
  { apply spelled_cases in N1, M1. apply in_combine_l in N1, M1. pose proof (str_no_sharp (p / 12)) as X. pose proof (str_no_sharp (q / 12)) as Y.
    set (a := py_str (p / 12)) in *. set (b := py_str (q / 12)) in *. clearbody a b. cbn in N1, M1.
    repeat (destruct N1 as [<-|N1]; [repeat (destruct M1 as [<-|M1]; [cbn in P; first [discriminate P | solve [injection P as P; subst; auto] | injection P as P; exfalso; solve [eapply X; [exact P|reflexivity] | eapply Y; [symmetry; exact P|reflexivity]]]|]); destruct M1|]). destruct N1. }
  destruct E as [<- E]. apply str_inj in E. assert (M : p mod 12 = q mod 12) by (eapply spelled_inj; eauto).
  rewrite (Z.div_mod p 12), (Z.div_mod q 12) by lia. lia.
Qed.

(* compound intervals *)
Lemma to_base_iff : forall i b o, compound_interval_to_base i = Ok (b, o) <-> base_to_compound_interval b o = Ok i.
Proof.
  intros i b o. unfold compound_interval_to_base, base_to_compound_interval.
  destruct (Z.ltb_spec i 0); destruct (Z.ltb_spec b 0); destruct (Z.ltb_spec 11 b); destruct (Z.ltb_spec o 0); cbn [orb]; split; intros E; try discriminate;
    try (injection E as E1 E2; exfalso; pose proof (Z.mod_pos_bound i 12); pose proof (Z.div_pos i 12); lia); try (injection E as E; exfalso; lia).
  - injection E as E1 E2. f_equal. subst. pose proof (Z.div_mod i 12). lia.
  - injection E as <-. f_equal. f_equal.
    + rewrite Z.add_comm, Z_mod_plus_full. apply Z.mod_small. lia.
    + rewrite Z.add_comm, Z.div_add by lia. rewrite Z.div_small by lia. lia.
Qed.
Lemma to_base_total : forall i, (exists b o, compound_interval_to_base i = Ok (b, o) /\ 0 <= b <= 11 /\ 0 <= o /\ i = 12 * o + b) \/ (i < 0 /\ compound_interval_to_base i = Err ValueError).
Proof.
  intros i. unfold compound_interval_to_base. destruct (Z.ltb_spec i 0); [right; auto|left]. exists (i mod 12), (i / 12). split; auto.
  pose proof (Z.mod_pos_bound i 12). pose proof (Z.div_pos i 12). pose proof (Z.div_mod i 12). lia.
Qed.
Lemma from_base_total : forall b o, (0 <= b <= 11 -> 0 <= o -> base_to_compound_interval b o = Ok (12 * o + b)) /\ (~ (0 <= b <= 11 /\ 0 <= o) -> base_to_compound_interval b o = Err ValueError).
Proof.
  intros b o. unfold base_to_compound_interval. destruct (Z.ltb_spec b 0); destruct (Z.ltb_spec 11 b); destruct (Z.ltb_spec o 0); cbn [orb]; split; intros; auto; try (exfalso; lia). f_equal. lia.
Qed.
