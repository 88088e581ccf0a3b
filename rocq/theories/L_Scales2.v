From Coq Require Import Sorted Permutation Ascii Lia.
From Verif Require Import PyBase L_Base L_Note M_Chord L_Chord M_Experiments L_Experiments L_Reader3 M_Scales S_Scales L_Scales.
Open Scope Z_scope.

(* roots *)
Lemma root_ok : forall r p, root_is r p -> resolve_root r = Ok p.
Proof.
  intros r p [[-> R]|[s [-> S]]]; unfold resolve_root.
  - destruct (Z.leb_spec 0 p); [|lia]. destruct (Z.leb_spec p 11); [|lia]. reflexivity.
  - assert (V : valid_name (upper s) = true) by (apply spelled_valid; eauto). rewrite V. cbn [negb]. apply spelled_pitch in S. rewrite S. reflexivity.
Qed.
Lemma root_bad : forall r, (forall p, ~ root_is r p) -> resolve_root r = Err ValueError.
Proof.
  intros [z|s] H; unfold resolve_root.
  - destruct (Z.leb_spec 0 z); [destruct (Z.leb_spec z 11)|]; try reflexivity. exfalso. apply (H z). left. split; auto.
  - destruct (valid_name (upper s)) eqn:V; [|reflexivity]. exfalso. apply spelled_valid in V as [p V]. apply (H p). right. eauto.
Qed.
Lemma root_range : forall r p, root_is r p -> 0 <= p <= 11.
Proof. intros r p [[_ R]|[s [_ S]]]; auto. eapply spelled_range; eauto. Qed.

(* upper *)
Lemma up_up : forall c, up_char (up_char c) = up_char c.
Proof. intros [[] [] [] [] [] [] [] []]; reflexivity. Qed.
Lemma upper_upper : forall s, upper (upper s) = upper s.
Proof. induction s as [|c s IH]; cbn; auto. rewrite up_up, IH. reflexivity. Qed.
Lemma by_name_upper : forall s, (exists v, simple_name (upper s) v /\ interval_by_name (upper s) = Ok v) \/
  ((forall v, ~ simple_name (upper s) v) /\ (interval_by_name (upper s) = Err KeyError \/ exists v, interval_by_name (upper s) = Ok v /\ 12 < v)).
Proof.
  intros s. unfold interval_by_name. destruct (dict_get String.eqb (upper s) interval_names) as [v|] eqn:E.
  - apply (dict_get_In String.eqb String.eqb_spec) in E. pose proof (upper_upper s) as U. set (u := upper s) in *. clearbody u.
    unfold interval_names in E. cbn [In] in E.
    repeat (destruct E as [E|E]; [injection E as <- <-; first [discriminate U | left; eexists; split; [cbn; tauto|reflexivity] | right; split; [intros v H; cbn in H; repeat (destruct H as [H|H]; [discriminate H|]); destruct H | right; eexists; split; [reflexivity|lia]]]|]).
    destruct E.
  - right. split; auto. intros v H. apply (dict_get_None String.eqb String.eqb_spec) in E. apply E. unfold simple_name in H. cbn [In] in H.
    repeat (destruct H as [H|H]; [injection H as <- <-; cbn; tauto|]). destruct H.
Qed.
Lemma simple_range : forall s v, simple_name s v -> 0 <= v <= 12.
Proof. intros s v H. unfold simple_name in H. cbn [In] in H. repeat (destruct H as [H|H]; [injection H as <- <-; lia|]). destruct H. Qed.
Lemma elem_ok : forall p e v, stands_for e v -> interval_pitch p e = Ok ((p + v) mod 12).
Proof.
  intros p e v [[-> R]|[s [-> S]]]; unfold interval_pitch; cbn [bind].
  - rewrite semitones_ok by auto. reflexivity.
  - destruct (by_name_upper s) as [[w [W E]]|[N _]]; [|destruct (N v S)]. rewrite E. cbn [bind].
    assert (w = v). { unfold simple_name in S, W. cbn [In] in S, W. set (u := upper s) in *. clearbody u.
      repeat (destruct S as [S|S]; [injection S as <- <-; repeat (destruct W as [W|W]; [first [discriminate W|injection W as W; auto]|]); destruct W|]). destruct S. }
    subst w. rewrite semitones_ok by (eapply simple_range; eauto). reflexivity.
Qed.
Lemma elem_bad : forall p e, (forall v, ~ stands_for e v) -> interval_pitch p e = Err KeyError.
Proof.
  intros p [s|v|] H; unfold interval_pitch; [| |reflexivity].
  - destruct (by_name_upper s) as [[w [W E]]|[N [E|[v [E L]]]]].
    + exfalso. apply (H w). right. eauto.
    + rewrite E. reflexivity.
    + rewrite E. cbn [bind]. rewrite semitones_bad by lia. reflexivity.
  - cbn [bind]. rewrite semitones_bad; [reflexivity|]. intros R. apply (H v). left. auto.
Qed.
Lemma uniform_iff : forall l, negb (forallb is_str l) && negb (forallb is_val l) = false <-> uniform l.
Proof.
  intros l. unfold uniform. rewrite andb_false_iff, !negb_false_iff, !forallb_forall. split.
  - intros [H|H]; [left|right]; intros e I; specialize (H e I); destruct e; try discriminate; eauto.
  - intros [H|H]; [left|right]; intros e I; destruct (H e I) as [x ->]; reflexivity.
Qed.
Lemma chord_ok : forall r p l vs, uniform l -> root_is r p -> Forall2 stands_for l vs -> chord_pitch_from_interval r l = Ok (map (fun v => (p + v) mod 12) vs).
Proof.
  intros r p l vs U R F. unfold chord_pitch_from_interval. rewrite (proj2 (uniform_iff l) U). rewrite (root_ok r p R). cbn [bind]. clear U.
  induction F as [|e v l vs E _ IH]; cbn; auto. rewrite (elem_ok p e v E). cbn [bind]. rewrite IH. reflexivity.
Qed.
Lemma chord_mixed : forall r l, ~ uniform l -> chord_pitch_from_interval r l = Err TypeError.
Proof.
  intros r l U. unfold chord_pitch_from_interval. destruct (negb (forallb is_str l) && negb (forallb is_val l)) eqn:E; auto. apply uniform_iff in E. destruct (U E).
Qed.
Lemma chord_bad_root : forall r l, uniform l -> (forall p, ~ root_is r p) -> chord_pitch_from_interval r l = Err ValueError.
Proof. intros r l U R. unfold chord_pitch_from_interval. rewrite (proj2 (uniform_iff l) U), root_bad by auto. reflexivity. Qed.
Lemma stands_dec : forall e, (exists v, stands_for e v) \/ (forall v, ~ stands_for e v).
Proof.
  intros [s|v|].
  - destruct (by_name_upper s) as [[w [W _]]|[N _]]; [left; exists w; right; eauto|right]. intros v [[E _]|[s' [E S]]]; [discriminate|]. injection E as <-. exact (N v S).
  - destruct (Z_le_dec 0 v); [destruct (Z_le_dec v 12)|].
    + left. exists v. left. auto.
    + right. intros w [[E R]|[s [E _]]]; [injection E as <-; lia|discriminate].
    + right. intros w [[E R]|[s [E _]]]; [injection E as <-; lia|discriminate].
  - right. intros v [[E _]|[s [E _]]]; discriminate.
Qed.
Lemma chord_bad_interval : forall r p l e, uniform l -> root_is r p -> In e l -> (forall v, ~ stands_for e v) -> chord_pitch_from_interval r l = Err KeyError.
Proof.
  intros r p l e U R I N. unfold chord_pitch_from_interval. rewrite (proj2 (uniform_iff l) U), (root_ok r p R). cbn [bind]. clear U R.
  induction l as [|x l IH]; [destruct I|]. cbn. destruct (stands_dec x) as [[v V]|V].
  - rewrite (elem_ok p x v V). cbn [bind]. destruct I as [->|I]; [destruct (N v V)|]. rewrite IH by auto. reflexivity.
  - rewrite elem_bad by auto. reflexivity.
Qed.
Lemma chord_case : forall r ss, chord_pitch_from_interval r (map IStr ss) = chord_pitch_from_interval r (map IStr (map upper ss)).
Proof.
  intros r ss. unfold chord_pitch_from_interval.
  assert (F : forall zs, forallb is_str (map IStr zs) = true) by (induction zs; cbn; auto). rewrite !F. cbn [negb andb]. destruct (resolve_root r) as [p|]; cbn [bind]; auto.
  rewrite map_map. induction ss as [|s ss IH]; cbn; auto. unfold interval_pitch at 1 3. rewrite upper_upper. rewrite IH. reflexivity.
Qed.

(* chord names *)
Lemma zlist_eqb_iff : forall a b, zlist_eqb a b = true <-> a = b.
Proof.
  induction a as [|x a IH]; intros [|y b]; cbn; split; intros H; try discriminate; auto.
  - apply andb_true_iff in H as [A B]. apply Z.eqb_eq in A. apply IH in B. congruence.
  - injection H as <- <-. rewrite Z.eqb_refl. apply IH. reflexivity.
Qed.
Lemma zlist_spec : forall a b, reflect (a = b) (zlist_eqb a b).
Proof. intros a b. apply iff_reflect. symmetry. apply zlist_eqb_iff. Qed.
Lemma name_sound : forall l n, get_chord_name l = Some n -> get_chord_intervals n = Ok l.
Proof.
  intros l n H. unfold get_chord_name in H. destruct (find _ chord_intervals) as [kv|] eqn:F; [|discriminate]. injection H as <-. apply find_some in F as [I E].
  apply zlist_eqb_iff in E. subst l. unfold chord_intervals in I. cbn [In] in I. repeat (destruct I as [<-|I]; [reflexivity|]). destruct I.
Qed.
Lemma reverse_sound : forall l n, get_chord_name_from_intervals l = Some n -> get_chord_intervals n = Ok l.
Proof.
  intros l n H. unfold get_chord_name_from_intervals in H. apply (dict_get_In zlist_eqb zlist_spec) in H. cbv in H.
  repeat (destruct H as [H|H]; [injection H as <- <-; reflexivity|]). destruct H.
Qed.
Lemma get_intervals_In : forall n l, get_chord_intervals n = Ok l -> In (n, l) chord_intervals.
Proof.
  intros n l H. unfold get_chord_intervals in H. destruct (dict_get String.eqb n chord_intervals) as [k|] eqn:E; [|discriminate]. apply Ok_inj in H. subst k.
  apply (dict_get_In String.eqb String.eqb_spec) in E. exact E.
Qed.
Lemma name_complete : forall n l, get_chord_intervals n = Ok l -> n <> "aug7"%string -> get_chord_name l = Some n.
Proof.
  intros n l H N. apply get_intervals_In in H. unfold chord_intervals in H. cbn [In] in H.
  repeat (destruct H as [H|H]; [injection H as <- <-; first [reflexivity | destruct (N eq_refl)]|]). destruct H.
Qed.
Lemma reverse_complete : forall n l, get_chord_intervals n = Ok l -> n <> "M7"%string -> get_chord_name_from_intervals l = Some n.
Proof.
  intros n l H N. apply get_intervals_In in H. unfold chord_intervals in H. cbn [In] in H.
  repeat (destruct H as [H|H]; [injection H as <- <-; first [reflexivity | destruct (N eq_refl)]|]). destruct H.
Qed.
Lemma names_agree : forall l, get_chord_name l = get_chord_name_from_intervals l <-> l <> [4; 3; 4].
Proof.
  intros l. split; [intros H ->; discriminate H|]. intros N.
  destruct (get_chord_name l) as [n|] eqn:E.
  - pose proof (name_sound l n E) as S. symmetry. apply reverse_complete; auto. intros ->. apply N. cbv in S. injection S as <-. reflexivity.
  - destruct (get_chord_name_from_intervals l) as [n|] eqn:F; auto. pose proof (reverse_sound l n F) as S. rewrite (name_complete n l S) in E; [discriminate|].
    intros ->. apply N. cbv in S. injection S as <-. reflexivity.
Qed.

(* triads *)
Lemma root_pitch_ok : forall r p, root_is r p -> root_pitch r = Ok p.
Proof. intros r p [[-> R]|[s [-> S]]]; unfold root_pitch; auto. apply spelled_pitch in S. rewrite S. reflexivity. Qed.
Lemma triad_ok : forall notes t p i, List.length notes = 7%nat -> (forall k, (k < 7)%nat -> exists n, nth_error notes k = Some n /\ spelled ((p + degree t k) mod 12) n) ->
  exists x y z, triad notes 7 i = Ok [x; y; z] /\ spelled (scale_note t p i 0) x /\ spelled (scale_note t p i 2) y /\ spelled (scale_note t p i 4) z.
Proof.
  intros notes t p i L H. unfold triad, scale_note. rewrite Nat.add_0_r.
  destruct (H (i mod 7)%nat) as [x [X1 X2]]; [apply Nat.mod_upper_bound; lia|].
  destruct (H ((i + 2) mod 7)%nat) as [y [Y1 Y2]]; [apply Nat.mod_upper_bound; lia|].
  destruct (H ((i + 4) mod 7)%nat) as [z [Z1 Z2]]; [apply Nat.mod_upper_bound; lia|].
  exists x, y, z. split; auto. cbn [each]. unfold nth_note. rewrite X1, Y1, Z1. reflexivity.
Qed.
Definition qnames (t : scale_type) : list string := map (fun c => match dict_get String.eqb c chord_name_mapping with Some n => n | None => EmptyString end) (chords t).
Lemma qname_ok : forall t i, (i < 7)%nat -> exists c, nth_error (chords t) i = Some c /\ exists q, nth_error (qnames t) i = Some q /\ dict_get String.eqb c chord_name_mapping = Some q.
Proof. intros t i L. destruct t; do 7 (destruct i as [|i]; [eexists; split; [reflexivity|]; eexists; split; reflexivity|]); lia. Qed.
Lemma each_nth : forall A B (f : A -> res B) l, (forall x, In x l -> exists y, f x = Ok y) -> exists q, each f l = Ok q /\ List.length q = List.length l /\
  forall i x, nth_error l i = Some x -> exists y, nth_error q i = Some y /\ f x = Ok y.
Proof.
  intros A B f. induction l as [|a r IH]; intros H.
  - exists []. split; auto. split; auto. intros [|i] x E; discriminate.
  - destruct (H a) as [b B1]; [left; auto|]. destruct IH as [q [Q1 [Q2 Q3]]]; [intros; apply H; right; auto|]. exists (b :: q). cbn. rewrite B1. cbn. rewrite Q1. split; auto. split; [cbn; lia|].
    intros [|i] x E; cbn in *; [injection E as <-; eauto|eauto].
Qed.
Lemma nth_seq7 : forall i, (i < 7)%nat -> nth_error (List.seq 0 7) i = Some i.
Proof. intros i L. do 7 (destruct i as [|i]; [reflexivity|]). lia. Qed.
Lemma tuple_ok : forall it r p a t, iterates it -> root_is r p -> designates a t ->
  exists l, triads_from_scale_tuple it r a = Ok l /\ List.length l = 7%nat /\
    (forall i, (i < 7)%nat -> exists x y z q, nth_error l i = Some ([x; y; z], q) /\ nth_error (qnames t) i = Some q /\ spelled (scale_note t p i 0) x /\ spelled (scale_note t p i 2) y /\ spelled (scale_note t p i 4) z) /\
    triads_from_scale it r a = Ok (map (fun tr => String.concat "" (fst tr)) l).
Proof.
  intros it r p a t I R D. unfold triads_from_scale_tuple, triads_from_scale. rewrite (proj2 (scale_arg_iff a t) D). cbn [bind].
  pose proof (root_range r p R) as RG. rewrite (root_pitch_ok r p R). cbn [bind].
  assert (E : (match r with RStr _ => root_pitch r | RInt z => if negb ((0 <=? z) && (z <=? 11)) then Err ValueError else Ok z end) = Ok p).
  { destruct r as [z|s]; [|rewrite <- (root_pitch_ok _ p R); reflexivity]. destruct R as [[E _]|[s [E _]]]; [|discriminate]. injection E as ->.
    destruct (Z.leb_spec 0 p); [|lia]. destruct (Z.leb_spec p 11); [|lia]. reflexivity. }
  rewrite (root_pitch_ok r p R) in E. rewrite E. cbn [bind]. destruct (name_ok p RG) as [nm [N1 N2]]. rewrite N1. cbn [bind]. rewrite (proj1 (spelled_index p nm) N2). cbn [bind].
  destruct (notes_ok it t p I) as [notes [O1 [O2 O3]]]. rewrite O1. cbn [bind]. rewrite O2.
  assert (RB : negb ((0 <=? p) && (p <=? 11)) = false) by (destruct (Z.leb_spec 0 p); [|lia]; destruct (Z.leb_spec p 11); [|lia]; reflexivity). rewrite RB.
  set (f := fun i => bind (triad notes 7 i) (fun q => bind (nth_note (chords t) i) (fun c => match dict_get String.eqb c chord_name_mapping with Some n => Ok (q, n) | None => Err KeyError end))).
  assert (F : forall i, (i < 7)%nat -> exists x y z q, f i = Ok ([x; y; z], q) /\ triad notes 7 i = Ok [x; y; z] /\ nth_error (qnames t) i = Some q /\ spelled (scale_note t p i 0) x /\ spelled (scale_note t p i 2) y /\ spelled (scale_note t p i 4) z).
  { intros i L. destruct (triad_ok notes t p i O2 O3) as [x [y [z [T1 T2]]]]. destruct (qname_ok t i L) as [c [C1 [q [C2 C3]]]]. exists x, y, z, q.
    split; [|tauto]. unfold f. rewrite T1. cbn [bind]. unfold nth_note. rewrite C1. cbn [bind]. rewrite C3. reflexivity. }
  destruct (each_nth _ _ f (List.seq 0 7)) as [l [L1 [L2 L3]]]. { intros i Ii. apply in_seq in Ii. destruct (F i) as [x [y [z [q [E1 _]]]]]; [lia|]. eauto. }
  exists l. split; [exact L1|]. split; [exact L2|]. split.
  - intros i L. destruct (L3 i i (nth_seq7 i L)) as [v [V1 V2]]. destruct (F i L) as [x [y [z [q [E1 [_ E2]]]]]]. rewrite E1 in V2. apply Ok_inj in V2. subst v. exists x, y, z, q. tauto.
  - rewrite (each_ok _ _ _ (fun i => match f i with Ok tr => String.concat "" (fst tr) | Err _ => EmptyString end)).
    + f_equal. assert (G : forall ks q, (forall i k, nth_error ks i = Some k -> (k < 7)%nat) -> each f ks = Ok q -> map (fun i => match f i with Ok tr => String.concat "" (fst tr) | Err _ => EmptyString end) ks = map (fun tr => String.concat "" (fst tr)) q).
      { induction ks as [|k ks IH]; intros q K H; cbn in H; [apply Ok_inj in H; subst; reflexivity|].
        destruct (f k) as [tr|] eqn:FK; [|discriminate]. cbn in H. destruct (each f ks) as [q'|] eqn:EK; [|discriminate]. cbn in H. apply Ok_inj in H. subst q. cbn [map]. rewrite FK. f_equal. apply IH; auto. intros i k0 H0. apply (K (S i)). exact H0. }
      apply G; [|exact L1]. intros i k H. apply nth_error_In in H. apply in_seq in H. lia.
    + intros i Ii. apply in_seq in Ii. destruct (F i) as [x [y [z [q [E1 [E2 _]]]]]]; [lia|]. rewrite E1, E2. reflexivity.
Qed.
Lemma tuple_bad_root : forall it r a t, designates a t -> (forall p, ~ root_is r p) ->
  let e := match r with RInt _ => ValueError | RStr _ => KeyError end in triads_from_scale_tuple it r a = Err e /\ triads_from_scale it r a = Err e.
Proof.
  intros it r a t D N e. unfold triads_from_scale_tuple, triads_from_scale. rewrite (proj2 (scale_arg_iff a t) D). cbn [bind]. destruct r as [z|s]; cbn in e; subst e.
  - cbn [root_pitch bind]. destruct (Z.leb_spec 0 z); [destruct (Z.leb_spec z 11)|]; try (split; reflexivity). exfalso. apply (N z). left. auto.
  - cbn [root_pitch]. destruct (pitch_of_name (upper s)) as [p|] eqn:E; [|split; reflexivity]. apply spelled_pitch in E. exfalso. apply (N p). right. eauto.
Qed.
Lemma tuple_bad_scale : forall it r a, (forall t, ~ designates a t) -> triads_from_scale_tuple it r a = Err ValueError /\ triads_from_scale it r a = Err ValueError.
Proof.
  intros it r a N. unfold triads_from_scale_tuple, triads_from_scale. destruct (match a with SStr s => by_value s | SType t => Ok t end) as [t|e] eqn:E.
  - apply scale_arg_iff in E. destruct (N t E).
  - apply scale_arg_err in E as [-> _]. split; reflexivity.
Qed.
Lemma quality_table : forall t, In t [MAJOR; MINOR; LYDIAN; AEOLIAN; HARMONIC_MINOR; MELODIC_MINOR] <->
  forall i q, (i < 7)%nat -> nth_error (qnames t) i = Some q -> quality (degree t i) (degree t ((i + 2) mod 7)) (degree t ((i + 4) mod 7)) q.
Proof.
  intros t. split.
  - intros H i q L E. cbn [In] in H. repeat (destruct H as [<-|H]; [do 7 (destruct i as [|i]; [cbv in E; injection E as <-; cbv; tauto|]); lia|]). destruct H.
  - intros H. destruct t; try (cbn; tauto); exfalso.
    + specialize (H 0%nat _ ltac:(lia) eq_refl). cbv in H. intuition discriminate.
    + specialize (H 2%nat _ ltac:(lia) eq_refl). cbv in H. intuition discriminate.
    + specialize (H 3%nat _ ltac:(lia) eq_refl). cbv in H. intuition discriminate.
    + specialize (H 4%nat _ ltac:(lia) eq_refl). cbv in H. intuition discriminate.
Qed.
Lemma tuple_quality : forall it r p a t l, iterates it -> root_is r p -> designates a t -> triads_from_scale_tuple it r a = Ok l ->
  (In t [MAJOR; MINOR; LYDIAN; AEOLIAN; HARMONIC_MINOR; MELODIC_MINOR] <->
   forall i ns q, nth_error l i = Some (ns, q) -> quality (scale_note t p i 0) (scale_note t p i 2) (scale_note t p i 4) q).
Proof.
  intros it r p a t l I R D E. destruct (tuple_ok it r p a t I R D) as [l' [E' [L [H _]]]]. rewrite E' in E. apply Ok_inj in E. subst l'. rewrite quality_table.
  assert (Q : forall i q, (i < 7)%nat -> (quality (degree t i) (degree t ((i + 2) mod 7)) (degree t ((i + 4) mod 7)) q <-> quality (scale_note t p i 0) (scale_note t p i 2) (scale_note t p i 4) q)).
  { intros i q Li. unfold quality, scale_note. rewrite Nat.add_0_r, (Nat.mod_small i 7) by lia.
    assert (M : forall u v, ((p + u) mod 12 - (p + v) mod 12) mod 12 = (u - v) mod 12). { intros u v. rewrite <- Zminus_mod. f_equal. lia. }
    rewrite !M. tauto. }
  split.
  - intros H1 i ns q N. assert (Li : (i < 7)%nat) by (rewrite <- L; apply nth_error_Some; congruence). destruct (H i Li) as [x [y [z [q' [N1 [N2 _]]]]]]. rewrite N1 in N. injection N as <- <-. apply Q; auto.
  - intros H1 i q Li N. destruct (H i Li) as [x [y [z [q' [N1 [N2 _]]]]]]. rewrite N2 in N. injection N as ->. apply Q; auto. eapply H1; eauto.
Qed.

(* intervals *)
Lemma from_semitones_ok : forall s, (0 <= s <= 22 -> from_semitones s = Ok s) /\ (~ 0 <= s <= 22 -> from_semitones s = Err ValueError).
Proof.
  intros s. split.
  - intros R. assert (K : In s (map Z.of_nat (List.seq 0 23))) by (apply in_map_iff; exists (Z.to_nat s); split; [lia|apply in_seq; lia]).
    cbn in K. repeat (destruct K as [<-|K]; [reflexivity|]). destruct K.
  - intros R. unfold from_semitones. destruct (find _ interval_names) as [kv|] eqn:F; auto. apply find_some in F as [I E]. apply Z.eqb_eq in E. subst s. exfalso. apply R.
    unfold interval_names in I. cbn [In] in I. repeat (destruct I as [<-|I]; [cbn; lia|]). destruct I.
Qed.
Lemma compound_ok : forall a b, 0 <= a <= 22 -> 0 <= b <= 22 -> compound_interval_from_bases a b = if a + b <=? 22 then Ok (a + b) else Err ValueError.
Proof.
  intros a b A B. unfold compound_interval_from_bases. cbv zeta. replace ((a + b) / 12 * 12 + (a + b - (a + b) / 12 * 12)) with (a + b) by lia.
  destruct (Z.leb_spec (a + b) 22); [apply (proj1 (from_semitones_ok _)); lia|apply (proj2 (from_semitones_ok _)); lia].
Qed.
Lemma in23 : forall i, 0 <= i <= 22 -> In i (map Z.of_nat (List.seq 0 23)).
Proof. intros i R. apply in_map_iff. exists (Z.to_nat i). split; [lia|apply in_seq; lia]. Qed.
Lemma inverse_ok : forall i, 0 <= i <= 22 -> exists b, bases i = Some b /\ zsum b = i /\ inverse_compound_interval i = Ok (12 * Z.of_nat (List.length b) - i) /\
  (inverse_compound_interval i = Ok (12 - i) <-> i = 0 \/ i = 12).
Proof.
  intros i R. apply in23 in R. cbn in R. repeat (destruct R as [<-|R]; [eexists; split; [reflexivity|]; split; [reflexivity|]; split; [reflexivity|]; split; [cbv; intros H; first [left; reflexivity|right; reflexivity|discriminate H]|intros [H|H]; first [discriminate H|reflexivity]]|]). destruct R.
Qed.

(* chords by name *)
Lemma sub_last : forall s c, substring (String.length s) 1 (s ++ String c EmptyString) = String c EmptyString.
Proof. induction s as [|x s IH]; intros c; cbn; auto. Qed.
Lemma sub_init : forall s c, substring 0 (String.length s) (s ++ String c EmptyString) = s.
Proof. intros. apply sub_app. Qed.
Lemma chord_name_len : forall s c, String.length (s ++ String c EmptyString) = S (String.length s).
Proof. induction s as [|x s IH]; intros c; cbn; auto. Qed.
Lemma one_letter_keys : forall c l, dict_get String.eqb (String c EmptyString) chord_intervals_mapping = Some l -> one_letter c l \/ (c = "9"%char /\ l = [P1; M3; P5; m7; M9]).
Proof.
  intros c l H. apply (dict_get_In String.eqb String.eqb_spec) in H. unfold chord_intervals_mapping in H. cbn [In] in H.
  repeat (destruct H as [H|H]; [first [discriminate H | injection H as <- <-; first [left; cbv; tauto | right; split; reflexivity]]|]). destruct H.
Qed.
Lemma letter_chord : forall s p c ks, spelled p s -> one_letter c ks ->
  exists ns, chord_from_scale (s ++ String c EmptyString) = Ok ns /\ Forall2 (fun k n => spelled ((p + k) mod 12) n) ks ns.
Proof.
  intros s p c ks S O. unfold chord_from_scale. cbv zeta. rewrite chord_name_len, sub_init, sub_last. rewrite (proj1 (spelled_index p s) S). cbn [bind].
  assert (D : dict_get String.eqb (String c EmptyString) chord_intervals_mapping = Some ks) by (unfold one_letter in O; cbn [In] in O; repeat (destruct O as [O|O]; [injection O as <- <-; reflexivity|]); destruct O).
  rewrite D. assert (KR : forall k, In k ks -> 0 <= k <= 12) by (unfold one_letter in O; cbn [In] in O; repeat (destruct O as [O|O]; [injection O as <- <-; cbn; intros; lia|]); destruct O).
  rewrite (chord_ok (RInt p) p (map IVal ks) ks); [|right; intros e I; apply in_map_iff in I as [v [<- _]]; eauto|left; split; auto; eapply spelled_range; eauto|].
  2:{ clear - KR. induction ks as [|k ks IH]; constructor; [left; split; auto; apply KR; left; auto|apply IH; intros; apply KR; right; auto]. }
  cbn [bind]. assert (NE : map (fun v => (p + v) mod 12) ks <> []) by (unfold one_letter in O; cbn [In] in O; repeat (destruct O as [O|O]; [injection O as <- <-; discriminate|]); destruct O).
  set (nm := fun k => match note_name k with Ok n => n | Err _ => EmptyString end).
  assert (NM : forall k, note_name (k mod 12) = Ok (nm (k mod 12)) /\ spelled (k mod 12) (nm (k mod 12))).
  { intros k. destruct (name_ok (k mod 12)) as [n [A B]]; [pose proof (Z.mod_pos_bound k 12); lia|]. unfold nm. rewrite A. auto. }
  exists (map nm (map (fun v => (p + v) mod 12) ks)). split.
  - destruct (map (fun v => (p + v) mod 12) ks) eqn:E; [congruence|]. rewrite <- E. apply each_ok. intros x I. apply in_map_iff in I as [k [<- _]]. apply NM.
  - rewrite map_map. clear - NM. induction ks as [|a ks IH]; constructor; auto. apply NM.
Qed.
Lemma letter_errors : forall s c,
  ((forall p, ~ spelled p s) -> chord_from_scale (s ++ String c EmptyString) = Err ValueError) /\
  (forall p, spelled p s -> c = "9"%char -> chord_from_scale (s ++ String c EmptyString) = Err KeyError) /\
  (forall p, spelled p s -> c <> "9"%char -> (forall ks, ~ one_letter c ks) -> chord_from_scale (s ++ String c EmptyString) = Err AssertionError).
Proof.
  intros s c. unfold chord_from_scale. cbv zeta. rewrite chord_name_len, sub_init, sub_last. split; [|split].
  - intros N. rewrite index_bad by auto. reflexivity.
  - intros p S ->. rewrite (proj1 (spelled_index p s) S). cbn [bind]. change (dict_get String.eqb "9"%string chord_intervals_mapping) with (Some [P1; M3; P5; m7; M9]). cbv iota beta.
    rewrite (chord_bad_interval (RInt p) p (map IVal [P1; M3; P5; m7; M9]) (IVal M9)); auto.
    + right. intros e I. apply in_map_iff in I as [v [<- _]]. eauto.
    + left. split; auto. eapply spelled_range; eauto.
    + cbn. tauto.
    + intros v [[E R]|[x [E _]]]; [injection E as <-; unfold M9 in R; lia|discriminate].
  - intros p S N9 N. rewrite (proj1 (spelled_index p s) S). cbn [bind].
    destruct (dict_get String.eqb (String c EmptyString) chord_intervals_mapping) as [l|] eqn:E; auto. apply one_letter_keys in E as [E|[E _]]; [destruct (N l E)|congruence].
Qed.
Lemma extended_all : forall r ns cs, ns <> [] -> extended r ns cs = Ok (map (fun kv => (r ++ fst kv)%string) cs).
Proof.
  intros r ns cs NE. assert (L : 0 < Z.of_nat (List.length ns)) by (destruct ns; [congruence|cbn; lia]).
  induction cs as [|[name ks] cs IH]; cbn; auto.
  assert (P : forall k, exists s, py_index ns k = Ok s /\ In s ns).
  { intros k. unfold py_index, nth_note. destruct (nth_error ns (Z.to_nat (k mod Z.of_nat (List.length ns)))) as [s|] eqn:E; [exists s; split; auto; eapply nth_error_In; eauto|].
    exfalso. apply nth_error_None in E. pose proof (Z.mod_pos_bound k (Z.of_nat (List.length ns)) L). lia. }
  assert (Q : exists q, each (py_index ns) ks = Ok q /\ forall x, In x q -> In x ns).
  { induction ks as [|k ks [q [Q1 Q2]]]; [exists []; split; auto; intros x []|]. destruct (P k) as [s [S1 S2]]. exists (s :: q). cbn. rewrite S1. cbn. rewrite Q1. split; auto. intros x [<-|I]; auto. }
  destruct Q as [q [Q1 Q2]]. rewrite Q1. cbn [bind]. rewrite IH. cbn [bind].
  assert (SB : subset_str q ns = true). { apply forallb_forall. intros x I. apply existsb_exists. exists x. split; [auto|apply String.eqb_refl]. } rewrite SB. reflexivity.
Qed.
Lemma extended_scale : forall it s p a t, iterates it -> spelled p s -> designates a t -> chord_from_scale_name_extended it s a = Ok (map (fun kv => (s ++ fst kv)%string) chord_intervals).
Proof.
  intros it s p a t I S D. unfold chord_from_scale_name_extended. destruct (notes_scale_ok it t p s a I S D) as [ns [E [L _]]]. rewrite E. cbn [bind]. apply extended_all. intros ->. discriminate L.
Qed.
Lemma list_of_chords_empty : forall r l, (exists q, list_of_chords r l = Ok q) <-> l = [] /\ 0 <= r <= 11.
Proof.
  intros r l. unfold list_of_chords. split.
  - intros [q H]. destruct (chord_pitch_from_interval (RInt r) l) as [ps|] eqn:E; [|discriminate]. cbn in H. destruct ps; [|discriminate].
    unfold chord_pitch_from_interval in E. destruct (_ && _); [discriminate|]. destruct (resolve_root (RInt r)) as [p|] eqn:R; [|discriminate]. cbn [bind] in E. split.
    + destruct l as [|x l]; auto. cbn in E. destruct (interval_pitch p x); [|discriminate]. cbn in E. destruct (each (interval_pitch p) l); discriminate.
    + unfold resolve_root in R. destruct (Z.leb_spec 0 r); [destruct (Z.leb_spec r 11); [lia|discriminate]|discriminate].
  - intros [-> R]. exists []. rewrite (chord_ok (RInt r) r [] []); [reflexivity|left; intros e []|left; auto|constructor].
Qed.
Lemma intervals_named : forall a,
  (forall t, a = SType t \/ (exists s, a = SStr s /\ upper s = scale_name t) ->
     exists l, intervals_from_scale a = Ok l /\ Permutation l (map (degree t) [0; 1; 2; 3; 4; 5; 6]%nat)) /\
  (forall s, a = SStr s -> (forall t, upper s <> scale_name t) -> intervals_from_scale a = Err KeyError).
Proof.
  intros a. split.
  - intros t H. exists (scale_intervals t). split.
    + destruct H as [->|[s [-> H]]]; cbn; auto. rewrite (proj2 (by_name_iff _ t) H). reflexivity.
    + rewrite <- (proj1 (scales_table t)). apply scales_table.
  - intros s -> H. cbn. destruct (by_name (upper s)) as [t|e] eqn:E; [apply by_name_iff in E; destruct (H t E)|]. unfold by_name in E. destruct (pick _ _); [discriminate|]. injection E as <-. reflexivity.
Qed.

(** Chord tables and interval names *)
Lemma Forall_chords : forall (P : string * list Z -> bool) (l : list (string * list Z)), forallb P l = true -> forall kv, In kv l -> P kv = true.
Proof. intros P l H. apply forallb_forall. exact H. Qed.
Lemma dict_get_mem : forall {V} k (l : list (string * V)) v, dict_get String.eqb k l = Some v -> In (k, v) l.
Proof.
  induction l as [|[k' v'] l IH]; cbn; intros v H; [discriminate|].
  destruct (String.eqb_spec k' k); [injection H as ->; left; subst; reflexivity|right; auto].
Qed.
Lemma zlist_eqb_eq : forall a b, zlist_eqb a b = true -> a = b.
Proof.
  induction a as [|x a IH]; intros [|y b] H; cbn in H; try discriminate; auto.
  apply andb_true_iff in H as [H1 H2]. apply Z.eqb_eq in H1. f_equal; auto.
Qed.
Definition std_of (n : string) : option (list Z) := dict_get String.eqb n standard_tones.
Definition is_name (l : list string) (n : string) : bool := existsb (String.eqb n) l.
Lemma is_name_in : forall l n, is_name l n = true <-> In n l.
Proof.
  intros l n. unfold is_name. rewrite existsb_exists. split.
  - intros [x [H E]]. apply String.eqb_eq in E. subst. exact H.
  - intros H. exists n. split; auto. apply String.eqb_refl.
Qed.
Definition agrees (o : option (list Z)) (l : list Z) : bool := match o with Some m => zlist_eqb m l | None => false end.
Lemma agrees_eq : forall o l, agrees o l = true <-> o = Some l.
Proof.
  intros [m|] l; cbn; split; intro H; try discriminate.
  - f_equal. apply zlist_eqb_eq. exact H.
  - injection H as ->. clear. induction l as [|x l IH]; cbn; auto. rewrite Z.eqb_refl. exact IH.
Qed.
Lemma steps_standard : forall n l, get_chord_intervals n = Ok l ->
  (std_of n = Some (climb 0 l) <-> n <> "aug7"%string).
Proof.
  intros n l H. unfold get_chord_intervals in H. destruct (dict_get _ _ _) eqn:E; [|discriminate]. apply Ok_inj in H as ->.
  apply dict_get_mem in E. 
  assert (T : forallb (fun kv => Bool.eqb (agrees (std_of (fst kv)) (climb 0 (snd kv))) (negb (is_name ["aug7"%string] (fst kv)))) chord_intervals = true) by (vm_compute; reflexivity).
  pose proof (Forall_chords _ _ T _ E) as K. cbn [fst snd] in K. apply Bool.eqb_prop in K.
  rewrite <- agrees_eq, K, negb_true_iff, <- not_true_iff_false, is_name_in. cbn. firstorder congruence.
Qed.
Lemma mapping_standard : forall n l, dict_get String.eqb n chord_intervals_mapping = Some l ->
  (std_of n = Some l <-> ~ In n ["dim7"; "13"; "M13"; "m13"]%string).
Proof.
  intros n l E. apply dict_get_mem in E. 
  assert (T : forallb (fun kv => Bool.eqb (agrees (std_of (fst kv)) (snd kv)) (negb (is_name ["dim7"; "13"; "M13"; "m13"]%string (fst kv)))) chord_intervals_mapping = true) by (vm_compute; reflexivity).
  pose proof (Forall_chords _ _ T _ E) as K. cbn [fst snd] in K. apply Bool.eqb_prop in K.
  rewrite <- agrees_eq, K, negb_true_iff, <- not_true_iff_false, is_name_in. tauto.
Qed.
Lemma names_same : map fst chord_intervals = map fst standard_tones /\ map fst chord_intervals_mapping = map fst standard_tones.
Proof. split; reflexivity. Qed.

Lemma dict_get_eqb_name : forall (l : list (string * Z)) k v, dict_get String.eqb k l = Some v -> In (k, v) l.
Proof. intros. apply dict_get_mem. assumption. Qed.
Definition deviants : list string := ["d7"; "d12"; "M11"; "m11"; "P13"; "A13"; "m14"; "M14"]%string.
Lemma interval_names_ok : forall q k v, 1 <= k <= 14 -> interval_by_name (String q (py_str k)) = Ok v ->
  (interval_size q k = Some v <-> ~ In (String q (py_str k)) deviants).
Proof.
  intros q k v Hk H. unfold interval_by_name in H. destruct (dict_get _ _ _) eqn:E; [|discriminate]. apply Ok_inj in H as ->.
  apply dict_get_mem in E.
  assert (T : forallb (fun kk => forallb (fun kv => match fst kv with EmptyString => true | String q r =>
       if String.eqb r (py_str (Z.of_nat kk)) then Bool.eqb (match interval_size q (Z.of_nat kk) with Some x => x =? snd kv | None => false end) (negb (is_name deviants (fst kv))) else true end)
       interval_names) (List.seq 1 14) = true) by (vm_compute; reflexivity).
  rewrite forallb_forall in T. specialize (T (Z.to_nat k)). rewrite Z2Nat.id in T by lia.
  assert (I : In (Z.to_nat k) (List.seq 1 14)) by (apply in_seq; lia). specialize (T I). rewrite forallb_forall in T. specialize (T _ E).
  cbn [fst snd] in T. rewrite String.eqb_refl in T. apply Bool.eqb_prop in T.
  rewrite <- is_name_in, not_true_iff_false, <- negb_true_iff, <- T. destruct (interval_size q k); split; intro X; try discriminate.
  - injection X as ->. apply Z.eqb_refl.
  - f_equal. apply Z.eqb_eq. exact X.
Qed.
Lemma interval_names_all : forall s v, interval_by_name s = Ok v ->
  s = "Tritone"%string /\ v = 6 \/ exists q k, 1 <= k <= 14 /\ s = String q (py_str k).
Proof.
  intros s v H. unfold interval_by_name in H. destruct (dict_get _ _ _) eqn:E; [|discriminate]. apply Ok_inj in H as ->.
  apply dict_get_mem in E. cbn in E.
  repeat (destruct E as [E|E]; [injection E as <- <-; first [left; split; reflexivity
    | right; eexists; first [exists 1; split; [lia|reflexivity] | exists 2; split; [lia|reflexivity] | exists 3; split; [lia|reflexivity] | exists 4; split; [lia|reflexivity]
      | exists 5; split; [lia|reflexivity] | exists 6; split; [lia|reflexivity] | exists 7; split; [lia|reflexivity] | exists 8; split; [lia|reflexivity]
      | exists 9; split; [lia|reflexivity] | exists 10; split; [lia|reflexivity] | exists 11; split; [lia|reflexivity] | exists 12; split; [lia|reflexivity]
      | exists 13; split; [lia|reflexivity] | exists 14; split; [lia|reflexivity]]]|]). destruct E.
Qed.
