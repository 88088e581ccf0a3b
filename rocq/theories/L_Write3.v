From Coq Require Import Lia Sorted Permutation Arith.
From Verif Require Import PyBase L_Base L_Sort M_Load S_Load M_Write S_Write S_Cut L_Load L_Load2 L_Load3 L_Load4 L_Write L_Write2.
Open Scope Z_scope.

Lemma NoDup_app_r : forall A (a b : list A), NoDup (a ++ b) -> NoDup b.
Proof. intros A a b. induction a; intros H; auto. inversion H; auto. Qed.
Definition onkey (e : event) : list (Z * Z * Z) := match snd e with MOn c k v => if 0 <? v then [(fst e, c, k)] else [] | _ => [] end.
Lemma no_double_keys : forall l, NoDup (flat_map onkey l) -> no_double l.
Proof.
  intros l H l1 l2 l3 t ch n v w -> Hv Hw. rewrite flat_map_app in H. cbn [flat_map] in H. rewrite flat_map_app in H. cbn [flat_map] in H.
  unfold onkey at 2 4 in H; cbn [snd fst] in H. destruct (Z.ltb_spec 0 v); [|lia]. destruct (Z.ltb_spec 0 w); [|lia].
  apply NoDup_app_r in H. cbn [app] in H. inversion H as [|? ? N _]; subst. apply N. apply in_or_app. right. left. auto.
Qed.
Lemma write_no_double : forall ch i, midi_inst i -> struck_apart (w_notes i) -> no_double (write_track ch i).
Proof.
  intros ch i M Q. apply no_double_keys. destruct (track_shape2 ch i M) as [last [E _]]. rewrite E, flat_map_app. cbn [flat_map].
  assert (flat_map onkey (name_ev i) = []) as -> by (unfold name_ev; destruct (String.eqb _ _); reflexivity). cbn [app].
  unfold Tail. rewrite flat_map_app. match goal with |- NoDup (?x ++ ?a ++ ?b) => change (x ++ a ++ b) with (a ++ []) end. rewrite app_nil_r.
  apply (Permutation_NoDup (l := flat_map onkey (rest_events ch i))); [apply Permutation_flat_map, tail_perm|].
  unfold rest_events. rewrite !flat_map_app.
  match goal with |- NoDup (?a ++ ?b ++ ?c) => assert (Eb : b = []) by (clear; induction (w_bends i); auto);
     assert (Ec : c = []) by (clear; induction (w_ccs i); auto); rewrite Eb, Ec end. rewrite !app_nil_r.
  unfold struck_apart in Q. destruct M as [M _]. induction (w_notes i) as [|n l IH]; [constructor|]. cbn [flat_map app onkey snd fst]. assert (0 < pn_vel n) as Hv by (destruct (M n (or_introl eq_refl)) as [_ [V _]]; lia).
  destruct (Z.ltb_spec 0 (pn_vel n)); [|lia]. cbn [Z.ltb Z.compare app]. constructor.
  - intros C. apply in_flat_map in C as [e [He C]]. apply in_flat_map in He as [k [Hk He]]. destruct He as [<-|[<-|[]]]; unfold onkey in C; cbn [snd fst] in C; [|destruct C].
    destruct (0 <? pn_vel k); [|destruct C]. destruct C as [C|[]]. injection C as C1 C2. apply in_split in Hk as [l1 [l2 ->]].
    apply (Q [] n l1 k l2); auto.
  - apply IH.
    + intros k Hk. apply M. right; auto.
    + intros l1 a l2 b l3 ->. apply (Q (n :: l1) a l2 b l3). reflexivity.
Qed.
Lemma write_notes : forall ch i, midi_inst i -> struck_apart (w_notes i) -> exists l,
  track_notes (fun _ => 0) (write_track ch i) = map (fun n => ((w_prog i, ch), n)) l /\ Permutation l (map (cutn i) (w_notes i)).
Proof.
  intros ch i M Q. destruct (track_shape3 ch i M) as [E [B [_ A]]]. rewrite E.
  assert (forall pr l, track_notes pr (name_ev i ++ l) = track_notes pr l) as W by (intros; unfold name_ev; destruct (String.eqb _ _); reflexivity).
  rewrite W. cbn [track_notes]. rewrite (track_found ch (last_of i) i M Q eq_refl A (Tail ch (last_of i) i) [] _ eq_refl). rewrite Z.eqb_refl.
  eexists. split; [reflexivity|]. apply Permutation_map. apply found_perm; auto.
Qed.
Lemma of_inst_map : forall pr ch p c l, of_inst pr ch (map (fun n => ((p, c), n)) l) = if pair_eqb (p, c) (pr, ch) then l else [].
Proof.
  intros. unfold of_inst. induction l as [|n l IH]; simpl; [destruct (pair_eqb _ _); auto|]. destruct (pair_eqb (p, c) (pr, ch)); simpl; [f_equal|]; exact IH.
Qed.
(** controllers *)
Definition bend_of (ch : Z) (e : event) : list (Z * Z) := match snd e with MBend c p => if c =? ch then [(fst e, p)] else [] | _ => [] end.
Definition cc_of (ch : Z) (e : event) : list (Z * Z * Z) := match snd e with MCC c n v => if c =? ch then [(fst e, n, v)] else [] | _ => [] end.
Lemma bends_flat : forall ch l, channel_bends ch l = flat_map (bend_of ch) l.
Proof. intros ch l. induction l as [|[t m] l IH]; [reflexivity|]. cbn [channel_bends flat_map]. destruct m; unfold bend_of at 1; cbn [snd fst]; rewrite IH; reflexivity. Qed.
Lemma ccs_flat : forall ch l, channel_ccs ch l = flat_map (cc_of ch) l.
Proof. intros ch l. induction l as [|[t m] l IH]; [reflexivity|]. cbn [channel_ccs flat_map]. destruct m; unfold cc_of at 1; cbn [snd fst]; rewrite IH; reflexivity. Qed.
Lemma flat_sorted : forall (A : Type) (f : event -> list A) (tm : A -> Z) l, (forall e x, In x (f e) -> tm x = fst e) -> (forall e, (List.length (f e) <= 1)%nat) ->
  ascending l -> StronglySorted (fun a b => tm a <= tm b) (flat_map f l).
Proof.
  intros A f tm l H L S. induction S as [|e l S IH F]; [constructor|]. cbn [flat_map]. specialize (L e). specialize (H e) as He.
  destruct (f e) as [|x [|y r]]; [exact IH| |simpl in L; lia]. cbn [app]. constructor; auto. rewrite Forall_forall in *. intros y Hy.
  apply in_flat_map in Hy as [e' [E1 E2]]. rewrite (He x (or_introl eq_refl)), (H e' y E2). auto.
Qed.
Lemma write_bends : forall ch i, midi_inst i ->
  Permutation (channel_bends ch (write_track ch i)) (w_bends i) /\ StronglySorted (fun a b => fst a <= fst b) (channel_bends ch (write_track ch i)) /\
  Permutation (channel_ccs ch (write_track ch i)) (w_ccs i) /\ StronglySorted (fun a b => fst (fst a) <= fst (fst b)) (channel_ccs ch (write_track ch i)).
Proof.
  intros ch i M. destruct (track_shape2 ch i M) as [last [E [B [A _]]]]. rewrite bends_flat, ccs_flat.
  assert (S1 : StronglySorted (fun a b => fst a <= fst b) (flat_map (bend_of ch) (write_track ch i))).
  { apply (flat_sorted _ (bend_of ch) fst); auto; intros [t m]; unfold bend_of; cbn [snd fst]; destruct m; try (intros x []); simpl; try lia;
      try (destruct (ch0 =? ch); [intros x [<-|[]]|intros x []]; reflexivity). destruct (ch0 =? ch); simpl; lia. }
  assert (S2 : StronglySorted (fun a b => fst (fst a) <= fst (fst b)) (flat_map (cc_of ch) (write_track ch i))).
  { apply (flat_sorted _ (cc_of ch) (fun x => fst (fst x))); auto; intros [t m]; unfold cc_of; cbn [snd fst]; destruct m; try (intros x []); simpl; try lia;
      try (destruct (ch0 =? ch); [intros x [<-|[]]|intros x []]; reflexivity). destruct (ch0 =? ch); simpl; lia. }
  split; [|split; [exact S1|split; [|exact S2]]]; rewrite E, flat_map_app; cbn [flat_map]; unfold Tail; rewrite flat_map_app.
  - assert (flat_map (bend_of ch) (name_ev i) = []) as -> by (unfold name_ev; destruct (String.eqb _ _); reflexivity). cbn [app].
    match goal with |- Permutation (?x ++ ?a ++ ?b) _ => change (x ++ a ++ b) with (a ++ []) end. rewrite app_nil_r.
    eapply Permutation_trans; [apply Permutation_flat_map; symmetry; apply tail_perm|]. unfold rest_events. rewrite !flat_map_app.
    match goal with |- Permutation (?a ++ ?b ++ ?c) _ => assert (Ea : a = []) by (clear; induction (w_notes i); auto);
      assert (Ec : c = []) by (clear; induction (w_ccs i); auto); rewrite Ea, Ec; rewrite app_nil_r; cbn [app]; replace b with (w_bends i); [reflexivity|] end.
    clear. induction (w_bends i) as [|[t p] l IH]; auto. cbn [map flat_map]. unfold bend_of at 1; cbn [snd fst]. rewrite Z.eqb_refl. cbn [app]. f_equal. exact IH.
  - assert (flat_map (cc_of ch) (name_ev i) = []) as -> by (unfold name_ev; destruct (String.eqb _ _); reflexivity). cbn [app].
    match goal with |- Permutation (?x ++ ?a ++ ?b) _ => change (x ++ a ++ b) with (a ++ []) end. rewrite app_nil_r.
    eapply Permutation_trans; [apply Permutation_flat_map; symmetry; apply tail_perm|]. unfold rest_events. rewrite !flat_map_app.
    match goal with |- Permutation (?a ++ ?b ++ ?c) _ => assert (Ea : a = []) by (clear; induction (w_notes i); auto);
      assert (Eb : b = []) by (clear; induction (w_bends i); auto); rewrite Ea, Eb; cbn [app]; replace c with (w_ccs i); [reflexivity|] end.
    clear. induction (w_ccs i) as [|[[t n] v] l IH]; auto. cbn [map flat_map]. unfold cc_of at 1; cbn [snd fst]. rewrite Z.eqb_refl. cbn [app]. f_equal. exact IH.
Qed.
(** the file *)
Lemma write_insts_nth : forall dc l n j i, nth_error l j = Some i -> nth_error (write_insts dc n l) j = Some (write_track (channel_of dc (n + j) i) i).
Proof.
  intros dc l. induction l as [|x l IH]; intros n j i E; [destruct j; discriminate|]. destruct j as [|j]; simpl in *.
  - injection E as ->. rewrite Nat.add_0_r. reflexivity.
  - rewrite (IH (S n) j i E). replace (S n + j)%nat with (n + S j)%nat by lia. reflexivity.
Qed.
Lemma chan_facts : forall dc, 0 <= dc < 16 -> List.length (channels dc) = 15%nat /\ NoDup (channels dc) /\ forall c, In c (channels dc) <-> 0 <= c < 16 /\ c <> dc.
Proof.
  intros dc H. assert (N : NoDup (channels dc)).
  { unfold channels. apply NoDup_filter. apply FinFun.Injective_map_NoDup; [intros a b Hab; apply Nat2Z.inj; exact Hab|apply seq_NoDup]. }
  assert (C : forall c, In c (channels dc) <-> 0 <= c < 16 /\ c <> dc).
  { intros c. unfold channels. rewrite filter_In, in_map_iff. split.
    - intros [[x [<- Hx]] E]. apply in_seq in Hx. destruct (Z.eqb_spec (Z.of_nat x) dc); [discriminate|]. lia.
    - intros [H1 H2]. split; [exists (Z.to_nat c); split; [lia|apply in_seq; lia]|]. destruct (Z.eqb_spec c dc); [lia|reflexivity]. }
  split; [|split; auto]. assert (Permutation (dc :: channels dc) (map Z.of_nat (seq 0 16))) as P.
  { apply NoDup_Permutation.
    - constructor; auto. rewrite C. lia.
    - apply FinFun.Injective_map_NoDup; [intros a b Hab; apply Nat2Z.inj; exact Hab|apply seq_NoDup].
    - intros x. simpl In at 1. rewrite C, in_map_iff. split.
      + intros Hx. exists (Z.to_nat x). split; [lia|apply in_seq; lia].
      + intros [y [<- Hy]]. apply in_seq in Hy. lia. }
  apply Permutation_length in P. cbn [List.length] in P. rewrite map_length, seq_length in P. lia.
Qed.
Lemma channel_drum : forall dc n i, 0 <= dc < 16 -> (channel_of dc n i =? dc) = w_drum i /\ 0 <= channel_of dc n i < 16.
Proof.
  intros dc n i H. unfold channel_of. destruct (w_drum i); [rewrite Z.eqb_refl; auto|]. destruct (chan_facts dc H) as [L [_ C]].
  assert (In (nth (n mod List.length (channels dc)) (channels dc) 0) (channels dc)) as I by (apply nth_In; apply Nat.mod_upper_bound; lia).
  apply C in I. destruct (Z.eqb_spec (nth (n mod List.length (channels dc)) (channels dc) 0) dc); split; auto; lia.
Qed.
Lemma channel_distinct : forall dc a b x y, 0 <= dc < 16 -> (a < b < a + 15)%nat -> w_drum x = false -> w_drum y = false -> channel_of dc a x <> channel_of dc b y.
Proof.
  intros dc a b x y H R Hx Hy. unfold channel_of. rewrite Hx, Hy. destruct (chan_facts dc H) as [L [N _]]. rewrite L. intros E.
  rewrite NoDup_nth in N. apply (N (a mod 15)%nat (b mod 15)%nat) in E; try (rewrite L; apply Nat.mod_upper_bound; lia).
  pose proof (Nat.div_mod a 15 ltac:(lia)). pose proof (Nat.div_mod b 15 ltac:(lia)). rewrite E in H0.
  assert (b - a = 15 * (b / 15) - 15 * (a / 15))%nat by lia. assert ((b / 15) <= (a / 15) \/ (a / 15) < (b / 15))%nat as [?|?] by lia; nia.
Qed.
Lemma roundtrip_cut : forall dc timing l tracks n i, write_file dc timing l = Ok tracks -> nth_error l n = Some i -> midi_inst i -> struck_apart (w_notes i) ->
  let s := load_file dc tracks in let ch := channel_of dc n i in let tr := Z.of_nat (S n) in
  Permutation (notes_of s (w_prog i, ch, tr)) (map (cutn i) (w_notes i)) /\
  (forall p c, (p, c) <> (w_prog i, ch) -> inst_of s (p, c, tr) = None) /\
  (w_notes i <> [] -> exists ins bs cs, inst_of s (w_prog i, ch, tr) = Some ins /\ pi_prog ins = w_prog i /\ pi_drum ins = w_drum i /\
     ctrl_of s (w_prog i, ch, tr) = Some (mkC bs cs) /\
     Permutation bs (w_bends i) /\ StronglySorted (fun a b => fst a <= fst b) bs /\
     Permutation cs (w_ccs i) /\ StronglySorted (fun a b => fst (fst a) <= fst (fst b)) cs).
Proof.
  intros dc timing l tracks n i W E M Q. unfold write_file in W. destruct ((0 <=? dc) && (dc <? 16)) eqn:D; [|discriminate].
  apply andb_true_iff in D as [D1 D2]. apply Z.leb_le in D1. apply Z.ltb_lt in D2. injection W as <-. cbv zeta.
  set (ch := channel_of dc n i). set (tracks := map (to_delta 0) (timing :: write_insts dc 0 l)). set (s := load_file dc tracks).
  assert (N : nth_error tracks (S n) = Some (to_delta 0 (write_track ch i))).
  { unfold tracks. simpl nth_error. rewrite nth_error_map, (write_insts_nth dc l 0 n i E). reflexivity. }
  destruct (track_shape2 ch i M) as [last [SH [B [A _]]]].
  assert (G : forall e, In e (write_track ch i) -> 0 <= fst e).
  { rewrite SH. intros e He. apply in_app_iff in He as [He|[<-|He]].
    - unfold name_ev in He. destruct (String.eqb _ _); [destruct He|destruct He as [<-|[]]]; simpl; lia.
    - simpl; lia.
    - assert (Hl : 0 <= last).
      { destruct (track_shape ch i M) as [last' [SH' [B' [x [X1 X2]]]]]. rewrite SH', (body_eq ch i M) in SH. cbn [app] in SH.
        apply app_inv_head in SH. injection SH as SH. unfold Tail in SH. apply app_inj_tail in SH as [_ SH]. injection SH as SH. apply B' in X1. lia. }
      unfold Tail in He. apply in_app_iff in He as [He|[<-|[]]]; [apply B in He; lia|simpl; lia]. }
  assert (DN : forall d, In d (to_delta 0 (write_track ch i)) -> 0 <= fst d) by (apply delta_nonneg; auto).
  assert (ND : no_double (to_abs 0 (to_delta 0 (write_track ch i)))) by (rewrite abs_delta; apply write_no_double; auto).
  destruct (write_notes ch i M Q) as [nl [T P]].
  assert (NO : forall p c, Permutation (notes_of s (p, c, Z.of_nat (S n))) (if pair_eqb (w_prog i, ch) (p, c) then nl else [])).
  { intros p c. destruct (C40_file dc tracks (S n) _ p c N DN ND) as [X _]. rewrite abs_delta, T, of_inst_map in X. exact X. }
  assert (PP : pair_eqb (w_prog i, ch) (w_prog i, ch) = true) by (unfold pair_eqb; simpl; rewrite !Z.eqb_refl; auto).
  assert (N1 := NO (w_prog i) ch). rewrite PP in N1. split; [eapply Permutation_trans; eauto|].
  assert (HN : forall k, (notes_of s k = [] -> inst_of s k = None)).
  { intros k Hk. destruct (inst_of s k) eqn:Ek; auto. exfalso. destruct (has_notes_file dc tracks k p Ek) as [H _]. apply H. unfold notes_of in Hk.
    unfold s in Ek, Hk. rewrite Ek in Hk. auto. }
  split.
  - intros p c Ne. apply HN. specialize (NO p c). destruct (pair_eqb_spec (w_prog i, ch) (p, c)); [congruence|]. apply Permutation_nil. symmetry. exact NO.
  - intros NE. destruct (inst_of s (w_prog i, ch, Z.of_nat (S n))) as [ins|] eqn:EI.
    + exists ins. destruct (has_notes_file dc tracks _ ins EI) as [_ [H1 H2]]. cbn [fst snd] in H1, H2.
      exists (channel_bends ch (write_track ch i)), (channel_ccs ch (write_track ch i)). destruct (write_bends ch i M) as [W1 [W2 [W3 W4]]].
      split; [exact EI|]. split; [auto|]. split; [rewrite H2; apply channel_drum; lia|]. split; [|auto].
      rewrite <- (abs_delta (write_track ch i) 0).
      apply (C81_file dc tracks (S n) (to_delta 0 (write_track ch i)) ch (name_ev i ++ [(0, MProg ch (w_prog i))]) (Tail ch last i) (w_prog i) ins); auto.
      * rewrite abs_delta, SH, <- app_assoc. reflexivity.
      * intros e He [k [v [X _]]]. apply in_app_iff in He as [He|[<-|[]]]; [|discriminate X]. unfold name_ev in He. destruct (String.eqb _ _); [destruct He|destruct He as [<-|[]]]. discriminate X.
      * right. intros e He [p X]. destruct (Tail_In ch last i M e He) as [[k [_ [->| ->]]]|[[u [p' ->]]|[[u [c [v ->]]]| ->]]]; discriminate X.
    + exfalso. apply NE. assert (notes_of s (w_prog i, ch, Z.of_nat (S n)) = []) as Z0 by (unfold notes_of; rewrite EI; auto).
      rewrite Z0 in N1. apply Permutation_nil in N1. rewrite N1 in P. apply Permutation_nil in P. apply map_eq_nil in P. auto.
Qed.
Lemma cutn_seq : forall i n, sequential (w_notes i) -> In n (w_notes i) -> cutn i n = n.
Proof.
  intros i n Q Hn. apply (cut_unique i n); [apply cutn_spec; auto|]. pose proof (seq_apart _ Q) as AP. destruct Q as [Q1 [Q2 Q3]].
  split; auto. split; auto. split; auto. split.
  - split; auto. right. left. exists n. auto.
  - intros t [L [[m [Hm ->]]|[[m [Hm [E ->]]]|[H1 H2]]]].
    + apply Q3; auto.
    + destruct (Z.lt_trichotomy (pn_start m) (pn_start n)) as [K|[K|K]].
      * specialize (Q3 m n Hm Hn K). lia.
      * assert (m = n) by (apply (seq_same (w_notes i)); auto). subst. lia.
      * specialize (Q3 n m Hn Hm K). specialize (Q1 m Hm). lia.
    + assert (busy i (pn_end n)) by (right; left; exists n; auto). specialize (H2 _ H). lia.
Qed.
Lemma cut_seq : forall i, sequential (w_notes i) -> map (cutn i) (w_notes i) = w_notes i.
Proof.
  intros i Q. rewrite <- (map_id (w_notes i)) at 2. apply map_ext_in. intros n N. apply cutn_seq; auto.
Qed.
Lemma roundtrip : forall dc timing l tracks n i, write_file dc timing l = Ok tracks -> nth_error l n = Some i -> midi_inst i -> sequential (w_notes i) ->
  let s := load_file dc tracks in let ch := channel_of dc n i in let tr := Z.of_nat (S n) in
  Permutation (notes_of s (w_prog i, ch, tr)) (w_notes i) /\
  (forall p c, (p, c) <> (w_prog i, ch) -> inst_of s (p, c, tr) = None) /\
  (w_notes i <> [] -> exists ins bs cs, inst_of s (w_prog i, ch, tr) = Some ins /\ pi_prog ins = w_prog i /\ pi_drum ins = w_drum i /\
     ctrl_of s (w_prog i, ch, tr) = Some (mkC bs cs) /\
     Permutation bs (w_bends i) /\ StronglySorted (fun a b => fst a <= fst b) bs /\
     Permutation cs (w_ccs i) /\ StronglySorted (fun a b => fst (fst a) <= fst (fst b)) cs).
Proof.
  intros dc timing l tracks n i W E M Q s ch tr. destruct (roundtrip_cut dc timing l tracks n i W E M (seq_apart _ Q)) as [A B].
  rewrite (cut_seq i Q) in A. split; auto.
Qed.
