(** Lemmas for midi_reader.py: statements in the form used by P_Reader. *)
From Coq Require Import Lia Lqa Permutation Sorted.
From Verif Require Import PyBase M_SortedDict M_Note M_Events M_Seq M_Seqs M_Reader S_Seq S_Reader L_Base L_Sigs L_Note L_Seq L_SortedDict L_Seqs L_Reader L_Reader2.
Open Scope Z_scope.

Lemma read_tracks : forall f, file_ok f -> exists so, read f = Ok so /\ file_end f (so_total so) /\
  (forall j, ~ 0 <= j < Z.of_nat (List.length (mf_insts f)) -> trk (so_ms so) j = None) /\
  (forall j i, nth_error (mf_insts f) j = Some i -> exists q, trk (so_ms so) (Z.of_nat j) = Some q /\
     i_num (q_instr q) = ri_prog i /\ i_drum (q_instr q) = ri_drum i /\ q_res q = mf_res f /\
     exists k, survivors [] (ri_notes i) k /\ Forall2 same_note k (q_notes q) /\
       Forall (fun n => (n_num n, n_den n) = time_signature (so_times so) (n_start n) /\ n_program n = ri_prog i /\ n_drum n = ri_drum i) (q_notes q)).
Proof.
  intros f F. destruct (read_spec f F) as [so [E [FE TR]]]. exists so. split; auto. split; auto.
  destruct TR as [I [R [T N]]]. split; auto. intros j i Hj.
  assert (B : (j < List.length (mf_insts f))%nat) by (apply nth_error_Some; congruence).
  destruct (T (Z.of_nat j)) as [q [Q1 [i' [Q2 [Q3 [Q4 [Q5 [Q6 _]]]]]]]]; [lia|]. rewrite Nat2Z.id in Q2.
  assert (i' = i) by congruence. subst i'. exists q. split; auto. split; auto. split; auto. split; auto.
  exists (kept 0 (ri_notes i)). rewrite Q6. split.
  - apply kept_survivors; [|intros x []|left; reflexivity]. destruct F as [_ [_ [_ [_ [F _]]]]]. rewrite Forall_forall in F.
    apply (F i). eapply nth_error_In; eauto.
  - split; [apply conv_same|apply conv_sig].
Qed.
Lemma read_controllers : forall f, file_ok f -> exists so, read f = Ok so /\
  (forall j i, nth_error (mf_insts f) j = Some i -> exists q, trk (so_ms so) (Z.of_nat j) = Some q /\
     (exists bs, selects (fun b => has_audible f -> (so_total so <= snd b)%Q) (ri_bends i) bs /\ Forall2 same_bend bs (q_bends q)) /\
     (exists cs, selects (fun c => has_audible f -> (so_total so <= snd c)%Q) (ri_ccs i) cs /\ Forall2 same_cc cs (q_ccs q))).
Proof.
  intros f F. destruct (read_spec f F) as [so [E [FE TR]]]. exists so. split; auto.
  destruct TR as [I [R [T N]]]. intros j i Hj.
  assert (B : (j < List.length (mf_insts f))%nat) by (apply nth_error_Some; congruence).
  destruct (T (Z.of_nat j)) as [q [Q1 [i' [Q2 [Q3 [Q4 [Q5 [Q6 [Q7 Q8]]]]]]]]]; [lia|]. rewrite Nat2Z.id in Q2.
  assert (i' = i) by congruence. subst i'. exists q. split; auto. split.
  - eexists. split; [apply (late_selects _ snd f (so_total so)); auto|]. exact Q7.
  - eexists. split; [apply (late_selects _ snd f (so_total so)); auto|]. exact Q8.
Qed.
(** Ends ascend: only inaudible notes are dropped. *)
Lemma survivors_ascending : forall l seen k, (forall m x, In m seen -> In x l -> (rn_end m <= rn_end x)%Q) ->
  StronglySorted (fun a b => (rn_end a <= rn_end b)%Q) l -> survivors seen l k -> selects audible l k.
Proof.
  intros l seen k A B C. revert A B. induction C; intros A B; [constructor| |].
  - apply sel_take; auto. inversion B as [|? ? B1 B2]; subst. rewrite Forall_forall in B2. apply IHC; auto. intros m x Hm Hx. apply in_app_iff in Hm.
    destruct Hm as [Hm|[<-|[]]]; [apply A; simpl; auto|]. auto.
  - inversion B as [|? ? B1 B2]; subst. rewrite Forall_forall in B2. apply sel_skip.
    + intros AU. destruct H as [H|[m [H1 [H2 H3]]]]; [contradiction|]. specialize (A m n H1 (or_introl eq_refl)). lra.
    + apply IHC; auto. intros m x Hm Hx. apply in_app_iff in Hm.
      destruct Hm as [Hm|[<-|[]]]; [apply A; simpl; auto|]. auto.
Qed.
Lemma survivors_last : forall l seen k, Forall note_ok l -> survivors seen l k ->
  forall n, In n l -> audible n -> (forall m, In m (seen ++ l) -> audible m -> (rn_end m <= rn_end n)%Q) -> In n k.
Proof.
  intros l seen k F C. induction C; intros x Hx AU MX; [destruct Hx| |]; inversion F; subst.
  - destruct Hx as [<-|Hx]; [left; auto|]. right. apply IHC; auto. rewrite <- app_assoc. auto.
  - destruct Hx as [<-|Hx].
    + exfalso. destruct H as [H|[m [H1 [H2' H3']]]]; [contradiction|].
      assert (rn_end m <= rn_end n)%Q by (apply MX; auto; apply in_app_iff; auto). lra.
    + apply IHC; auto. rewrite <- app_assoc. auto.
Qed.

(** Too many instruments. *)
Lemma sorted_unique : forall (a b : list Z), StronglySorted (fun x y => (x <? y) = true) a -> StronglySorted (fun x y => (x <? y) = true) b ->
  (forall x, In x a <-> In x b) -> a = b.
Proof.
  induction a as [|x a IH]; intros b SA SB E.
  - destruct b as [|y b]; auto. destruct (proj2 (E y) (or_introl eq_refl)).
  - destruct b as [|y b]; [destruct (proj1 (E x) (or_introl eq_refl))|].
    inversion SA as [|? ? SA1 SA2]; subst. inversion SB as [|? ? SB1 SB2]; subst. rewrite Forall_forall in SA2, SB2.
    assert (x = y).
    { destruct (proj1 (E x) (or_introl eq_refl)) as [->|H1]; auto.
      destruct (proj2 (E y) (or_introl eq_refl)) as [->|H2]; auto.
      apply SB2 in H1. apply SA2 in H2. apply Z.ltb_lt in H1, H2. lia. }
    subst y. f_equal. apply IH; auto. intros z. split; intros Hz.
    + destruct (proj1 (E z) (or_intror Hz)) as [<-|H]; auto. apply SA2 in Hz. rewrite Z.ltb_irrefl in Hz. discriminate.
    + destruct (proj2 (E z) (or_intror Hz)) as [<-|H]; auto. apply SB2 in Hz. rewrite Z.ltb_irrefl in Hz. discriminate.
Qed.
Lemma seq_sorted : forall n k, StronglySorted (fun x y => (x <? y) = true) (map Z.of_nat (List.seq k n)).
Proof.
  induction n as [|n IH]; intros k; simpl; constructor; auto. apply Forall_forall. intros x Hx.
  apply in_map_iff in Hx as [y [<- Hy]]. apply in_seq in Hy. apply Z.ltb_lt. lia.
Qed.
Lemma keys_enum : forall n P s, tracks_are (Z.of_nat n) P s -> sd_keys (m_tracks s) = map Z.of_nat (List.seq 0 n).
Proof.
  intros n P s [I [R [T N]]]. apply sorted_unique.
  - apply I. - apply seq_sorted.
  - intros x. rewrite (keys_iff Z.ltb Z.eqb zsto (m_tracks s) x I). rewrite in_map_iff. split.
    + intros [q Hq]. change (trk s x = Some q) in Hq. destruct (Z_lt_ge_dec x 0) as [L|L]; [|destruct (Z_lt_ge_dec x (Z.of_nat n)) as [L'|L']].
      * rewrite (N x) in Hq by lia. discriminate.
      * exists (Z.to_nat x). split; [lia|]. apply in_seq. lia.
      * rewrite (N x) in Hq by lia. discriminate.
    + intros [y [<- Hy]]. apply in_seq in Hy. destruct (T (Z.of_nat y)) as [q [Hq _]]; [lia|]. eauto.
Qed.
Lemma truncate_ok : forall s e, tinv s -> (forall k q n, trk s k = Some q -> In n (q_notes q) -> (n_start n < n_end n)%Q) ->
  ms_events s <> [] -> truncate_to s (Some e) = Ok (max_end (ms_events s)).
Proof.
  intros s e I V NE. unfold truncate_to, ms_truncate.
  pose proof (values_notes s I) as EV. destruct (max_end_spec (ms_events s)) as [M1 _].
  destruct (ms_events s) as [|n l] eqn:E; [congruence|]. cbv zeta. unfold ms_trim. rewrite trim_loop_none; auto.
  intros q x Hq Hx. unfold ms_values in Hq. apply in_flat_map in Hq as [k [Hk Hq]]. destruct (trk s k) as [q'|] eqn:T; [|destruct Hq].
  destruct Hq as [<-|[]]. assert (A : In x (n :: l)) by (apply EV; eauto). apply M1 in A. specialize (V k q' x T Hx). lra.
Qed.
Lemma conv_insts_ok : forall ks s n P t, tracks_are n P s -> n <= 128 -> (forall k, In k ks -> 0 <= k < n) ->
  exists l, conv_insts s ks t = Ok l /\ Forall2 (fun k o => exists q, trk s k = Some q /\ P k q /\ o = seq_to_inst q t) ks l.
Proof.
  induction ks as [|k ks IH]; intros s n P t TR B H; cbn [conv_insts]; [eauto|].
  pose proof TR as TR0. destruct TR as [I [R [T N]]].
  destruct (T k) as [q [Q1 Q2]]; [apply H; simpl; auto|]. pose proof (H k (or_introl eq_refl)) as Hk.
  assert (RD : ready s k q).
  { unfold ready. split; auto. split; [|split; auto; lia]. rewrite R.
    replace ((0 <=? k) && (k <? n)) with true; auto. symmetry; apply andb_true_iff; split; [apply Z.leb_le|apply Z.ltb_lt]; lia. }
  rewrite (getitem_ready _ _ _ RD). destruct (IH s n P t TR0 B) as [l [E F]]; [intros; apply H; simpl; auto|].
  rewrite E. cbn [bind]. eexists. split; [reflexivity|]. constructor; eauto.
Qed.
Lemma back_notes : forall times i l, map (fun n => mkRN (n_velocity n) (n_pitch n) (n_start n) (n_end n)) (map (conv times i) l) = l.
Proof. intros times i. induction l as [|[v p a b] l IH]; simpl; auto. rewrite IH. reflexivity. Qed.
Lemma kept_In : forall l m n, In n (kept m l) -> In n l /\ audible n.
Proof.
  induction l as [|x l IH]; intros m n H; cbn [kept] in H; [destruct H|].
  destruct (qclose_def (rn_start x) (rn_end x)) eqn:C; [apply IH in H; simpl; intuition|].
  destruct (Qle_bool m (rn_end x)); [|apply IH in H; simpl; intuition].
  destruct H as [<-|H]; [split; [simpl; auto|apply audible_iff; auto]|apply IH in H; simpl; intuition].
Qed.

Lemma back_spec : forall f so e, file_ok f -> read f = Ok so -> has_audible f ->
  exists l, to_instruments so (Some e) = Ok (mkRI 0 false "" [] [] [] :: l) /\
    Forall2 (fun i o => ri_prog o = 0 /\ ri_drum o = ri_drum i /\ survivors [] (ri_notes i) (ri_notes o) /\ ri_bends o = [] /\ ri_ccs o = []) (mf_insts f) l.
Proof.
  intros f so e F E AU. destruct (read_spec f F) as [so' [E' [FE TR]]]. assert (so' = so) by congruence. subst so'.
  pose proof F as F0. destruct F as [_ [_ [_ [_ [F FL]]]]]. rewrite Forall_forall in F.
  pose proof TR as TR0. destruct TR as [I [R [T N]]].
  pose proof (values_notes (so_ms so) I) as EV.
  assert (ALL : forall k q n, trk (so_ms so) k = Some q -> In n (q_notes q) -> (n_start n < n_end n)%Q /\ (n_end n <= so_total so)%Q).
  { intros k q n Hq Hn. destruct (Z_lt_ge_dec k 0) as [L|L]; [rewrite (N k) in Hq by lia; discriminate|].
    destruct (Z_lt_ge_dec k (Z.of_nat (List.length (mf_insts f)))) as [L'|L']; [|rewrite (N k) in Hq by lia; discriminate].
    destruct (T k) as [q' [Q1 [i [Q2 [Q3 [Q4 [Q5 [Q6 _]]]]]]]]; [lia|]. assert (q' = q) by congruence. subst q'.
    rewrite Q6 in Hn. apply in_map_iff in Hn as [m [<- Hm]]. apply kept_In in Hm as [Hm Ha].
    assert (Hi : In i (mf_insts f)) by (eapply nth_error_In; eauto).
    destruct (F i Hi) as [_ [Fn _]]. rewrite Forall_forall in Fn. split.
    - cbn. apply audible_lt; auto.
    - cbn. destruct FE as [FE _]. apply FE. eauto. }
  assert (NE : ms_events (so_ms so) <> []).
  { destruct FE as [FE1 FE2]. destruct FE2 as [[_ X]|[n [[i [A [B C]]] D]]].
    - destruct AU as [i [n [A [B C]]]]. exfalso. apply (X n). eauto.
    - destruct (In_nth_error _ _ A) as [j Hj].
      assert (LJ : (j < List.length (mf_insts f))%nat) by (apply nth_error_Some; congruence).
      destruct (T (Z.of_nat j)) as [q [Q1 [i' [Q2 [Q3 [Q4 [Q5 [Q6 _]]]]]]]]; [lia|]. rewrite Nat2Z.id in Q2.
      assert (i' = i) by congruence. subst i'.
      assert (K : In n (kept 0 (ri_notes i))).
      { destruct (F i A) as [_ [Fn _]]. apply (survivors_last (ri_notes i) [] (kept 0 (ri_notes i))); auto.
        - apply kept_survivors; auto. intros x []. left; reflexivity.
        - intros m Hm Ha. cbn in Hm. assert (rn_end m <= so_total so)%Q by (apply FE1; eauto). lra. }
      assert (X : In (conv (so_times so) i n) (ms_events (so_ms so))).
      { apply EV. exists (Z.of_nat j), q. split; auto. rewrite Q6. apply in_map. auto. }
      intros Z0. rewrite Z0 in X. destruct X. }
  unfold to_instruments. rewrite (truncate_ok _ e I); auto; [|intros k q n Hq Hn; apply (ALL k q n Hq Hn)]. cbn [bind].
  set (t := max_end (ms_events (so_ms so))).
  assert (TT : (t <= so_total so)%Q).
  { destruct (max_end_spec (ms_events (so_ms so))) as [_ [M2 _]]. destruct (M2 NE) as [m [Hm Em]]. unfold t. rewrite <- Em.
    apply EV in Hm. destruct Hm as [k [q [Hq Hn]]]. apply (ALL k q m Hq Hn). }
  rewrite (keys_enum _ _ _ TR0).
  destruct (conv_insts_ok (map Z.of_nat (List.seq 0 (List.length (mf_insts f)))) (so_ms so) _ _ t TR0) as [l [L1 L2]]; [lia| |].
  { intros k Hk. apply in_map_iff in Hk as [y [<- Hy]]. apply in_seq in Hy. lia. }
  rewrite L1. cbn [bind]. exists l. split; auto.
  assert (G : forall (is : list rinst) k l, (forall j i, nth_error is j = Some i -> nth_error (mf_insts f) (k + j) = Some i) ->
    Forall2 (fun (k : Z) (o : rinst) => exists q, trk (so_ms so) k = Some q /\
        (exists i, nth_error (mf_insts f) (Z.to_nat k) = Some i /\ i_num (q_instr q) = ri_prog i /\ i_drum (q_instr q) = ri_drum i /\ q_res q = mf_res f /\
        q_notes q = map (conv (so_times so) i) (kept 0 (ri_notes i)) /\
        Forall2 same_bend (filter (fun b => late (so_total so) (snd b)) (ri_bends i)) (q_bends q) /\
        Forall2 same_cc (filter (fun b => late (so_total so) (snd b)) (ri_ccs i)) (q_ccs q)) /\ o = seq_to_inst q t)
       (map Z.of_nat (List.seq k (List.length is))) l ->
    Forall2 (fun i o => ri_prog o = 0 /\ ri_drum o = ri_drum i /\ survivors [] (ri_notes i) (ri_notes o) /\ ri_bends o = [] /\ ri_ccs o = []) is l).
  { clear L1 L2 l. pose proof (file_end_pos f _ F0 FE AU) as TP.
    induction is as [|i is IH]; intros k l H HF; cbn [List.length List.seq map] in HF; inversion HF as [|? o ? l' HO HT]; subst; constructor.
    - destruct HO as [q [Q1 [[i' [Q2 [Q3 [Q4 [Q5 [Q6 [Q7 Q8]]]]]]] ->]]]. rewrite Nat2Z.id in Q2.
      assert (i' = i) by (specialize (H O i eq_refl); rewrite Nat.add_0_r in H; congruence). subst i'.
      unfold seq_to_inst. cbn [ri_prog ri_drum ri_notes ri_bends ri_ccs]. split; auto. split; auto.
      rewrite Q6, back_notes. split.
      + apply kept_survivors; [|intros x []|left; reflexivity]. apply (F i). eapply nth_error_In; eauto.
      + assert (KP : forall x, late (so_total so) x = true -> (t <= x)%Q).
        { intros x Hx. unfold late in Hx. apply orb_true_iff in Hx. rewrite Qeq_bool_iff, Qle_bool_iff in Hx. destruct Hx; lra. }
        split.
        * revert Q7. generalize (ri_bends i). intros w. generalize (q_bends q).
          induction w as [|[a u] w IHw]; intros v HV; cbn [filter snd] in HV; [inversion HV; reflexivity|].
          destruct (late (so_total so) u) eqn:LA; [|auto]. inversion HV as [|? b ? v' SB HV']; subst. cbn [flat_map].
          rewrite (IHw v' HV'). destruct SB as [_ [t' [-> SB]]]. cbn [snd] in SB. apply KP in LA.
          replace (Qltb t' t) with false by (symmetry; apply Qltb_ge; lra). rewrite andb_false_r. reflexivity.
        * revert Q8. generalize (ri_ccs i). intros w. generalize (q_ccs q).
          induction w as [|[[a a'] u] w IHw]; intros v HV; cbn [filter snd] in HV; [inversion HV; reflexivity|].
          destruct (late (so_total so) u) eqn:LA; [|auto]. inversion HV as [|? b ? v' SB HV']; subst. cbn [flat_map].
          rewrite (IHw v' HV'). destruct SB as [_ [_ SB]]. cbn [snd] in SB. apply KP in LA.
          replace (Qltb (cc_time b) t) with false by (symmetry; apply Qltb_ge; rewrite SB; lra). rewrite andb_false_r. reflexivity.
    - apply (IH (S k)); auto. intros j x Hx. specialize (H (S j) x Hx). replace (S k + j)%nat with (k + S j)%nat by lia. auto. }
  apply (G (mf_insts f) O l); auto.
Qed.

Lemma to_instruments_none : forall so, (forall l, to_instruments so None <> Ok l) /\
  (ms_events (so_ms so) = [] -> to_instruments so None = Err ValueError) /\
  (ms_events (so_ms so) <> [] -> to_instruments so None = Err TypeError).
Proof.
  intros so. unfold to_instruments, truncate_to. destruct (ms_events (so_ms so)) as [|n l] eqn:E.
  - split; [discriminate|]. split; auto. congruence.
  - destruct (ms_values (so_ms so)) eqn:V.
    + exfalso. unfold ms_events in E. rewrite V in E. discriminate.
    + split; [discriminate|]. split; auto. discriminate.
Qed.
Lemma write_fails : forall rest so filename exists_ from_start overwrite,
  exists e, write rest so filename exists_ from_start None overwrite = Err e.
Proof.
  intros. unfold write. destruct (Nat.eqb _ _); [eauto|]. destruct (String.eqb _ _); [eauto|]. destruct (_ && _); [eauto|].
  destruct (match from_start with Some a => Qltb a 0 | None => false end); [eauto|].
  replace (match from_start with Some _ => false | None => false end) with false by (destruct from_start; auto).
  destruct (to_instruments so None) as [l|e] eqn:E; [|cbn; eauto]. exfalso. apply (proj1 (to_instruments_none so) l E).
Qed.
Lemma write_args : forall rest so filename exists_ from_start to_end overwrite,
  let bad := sd_len (m_tracks (so_ms so)) = O \/ filename = ""%string in
  let kept_ := exists_ = true /\ overwrite = false in
  let range := (exists a, from_start = Some a /\ (a < 0)%Q) \/ (exists b, to_end = Some b /\ (b < 0)%Q) \/
               (exists a b, from_start = Some a /\ to_end = Some b /\ (b < a)%Q) in
  let r := write rest so filename exists_ from_start to_end overwrite in
  (bad -> r = Err ValueError) /\ (~ bad -> kept_ -> r = Err FileExistsError) /\ (~ bad -> ~ kept_ -> range -> r = Err ValueError) /\
  (~ bad -> ~ kept_ -> ~ range -> r = bind (to_instruments so to_end) rest).
Proof.
  intros. unfold r, write. clear r. destruct (Nat.eqb_spec (sd_len (m_tracks (so_ms so))) 0) as [E0|E0].
  { assert (bad) by (left; exact E0). split; [auto|]. split; [|split]; intros; contradiction. }
  destruct (String.eqb_spec filename "") as [E1|E1].
  { assert (bad) by (right; exact E1). split; [auto|]. split; [|split]; intros; contradiction. }
  assert (NB : ~ bad) by (unfold bad; tauto). split; [intros; contradiction|].
  destruct exists_, overwrite; cbn [negb andb];
    try (split; [intros; reflexivity|]; split; intros _ N; exfalso; apply N; split; reflexivity);
    (split; [intros _ [N1 N2]; discriminate|]);
    (destruct from_start as [a|]; [destruct (Qltb a 0) eqn:A; [apply Qltb_lt in A|apply Qltb_ge in A]|]);
    (destruct to_end as [b|]; [destruct (Qltb b 0) eqn:B; [apply Qltb_lt in B|apply Qltb_ge in B]|]);
    try (destruct (Qltb b a) eqn:C; [apply Qltb_lt in C|apply Qltb_ge in C]);
    (split; [intros _ _ R; try reflexivity; exfalso; destruct R as [[x [X1 X2]]|[[x [X1 X2]]|[x [y [X1 [Y1 X2]]]]]]; try discriminate;
      try inversion X1; try inversion Y1; subst; lra|]);
    intros _ _ R; try reflexivity; exfalso; apply R;
    first [left; eexists; split; [reflexivity|assumption] | right; left; eexists; split; [reflexivity|assumption] | right; right; do 2 eexists; split; [reflexivity|split; [reflexivity|assumption]]].
Qed.
Lemma write_exists : forall rest so filename from_start to_end, sd_len (m_tracks (so_ms so)) <> O -> filename <> ""%string ->
  write rest so filename true from_start to_end false = Err FileExistsError.
Proof.
  intros. unfold write. rewrite (proj2 (Nat.eqb_neq _ _) H). destruct (String.eqb_spec filename ""); [congruence|]. reflexivity.
Qed.

(** More than 128 instruments. *)
Lemma each_app : forall A S (f : S -> A -> res unit * S) l1 l2 st, each f st (l1 ++ l2) =
  match each f st l1 with (Err e, st') => (Err e, st') | (Ok _, st') => each f st' l2 end.
Proof. induction l1 as [|a l1 IH]; intros l2 st; cbn [each app]; auto. destruct (f st a) as [[u|e] st']; auto. Qed.
Lemma number_app : forall A (a b : list A) k, number k (a ++ b) = number k a ++ number (k + Z.of_nat (List.length a)) b.
Proof.
  induction a as [|x a IH]; intros b k.
  - cbn [app number List.length]. f_equal. lia.
  - cbn [app number List.length]. rewrite IH. f_equal. f_equal. f_equal. lia.
Qed.
Lemma beyond_note : forall times id i l s total, 128 <= id ->
  ((exists n, In n l /\ audible n) -> exists st, each (read_note times id i) (s, total) l = (Err ValueError, st)) /\
  ((forall n, In n l -> ~ audible n) -> each (read_note times id i) (s, total) l = (Ok tt, (s, total))).
Proof.
  intros times id i l s total B. assert (GI : forall s, ms_getitem s id = (Err ValueError, s)).
  { intros s0. unfold ms_getitem. replace (128 <=? id) with true by (symmetry; apply Z.leb_le; lia). rewrite orb_true_r. reflexivity. }
  induction l as [|n l [IH1 IH2]].
  - split; [intros [x [X1 X2]]; destruct X1|intros H; reflexivity].
  - split.
    + intros [x [X1 X2]]. cbn [each]. destruct (audible_dec n) as [AU|NA].
      * unfold read_note. rewrite (proj2 (audible_iff n) AU). unfold keep_note, set_track_total. rewrite !GI.
        destruct (Qeq_bool total 0); cbv beta iota zeta; rewrite ?GI; eauto.
      * unfold read_note at 1. rewrite (proj2 (close_iff n) NA). apply IH1. destruct X1 as [->|X1]; [contradiction|eauto].
    + intros H. cbn [each]. unfold read_note at 1. rewrite (proj2 (close_iff n) (H n (or_introl eq_refl))).
      apply IH2. intros; apply H; simpl; auto.
Qed.
Lemma beyond_insts : forall times l n P s total, 128 <= n -> Forall inst_ok l -> tracks_are n P s ->
  (exists i x, In i l /\ In x (ri_notes i) /\ audible x) ->
  exists st, each (read_inst fst (fun st s => (s, snd st)) (fun id i st => each (read_note times id i) st (ri_notes i))) (s, total) (number n l) = (Err ValueError, st).
Proof.
  intros times. induction l as [|i l IH]; intros n P s total B F TR [i0 [x [X1 [X2 X3]]]]; [destruct X1|].
  inversion F as [|? ? Fi Fl]; subst. cbn [number each]. unfold read_inst at 1. cbn [fst snd].
  destruct (create_new s n P i TR ltac:(lia) (proj1 Fi)) as [ins [s1 [E [E1 [E2 [TR1 M1]]]]]]. rewrite E.
  destruct (beyond_note times n i (ri_notes i) s1 total B) as [H1 H2].
  destruct (existsb (fun x => negb (qclose_def (rn_start x) (rn_end x))) (ri_notes i)) eqn:EX.
  - destruct H1 as [st H1]; [|rewrite H1; eauto]. apply existsb_exists in EX as [y [Y1 Y2]]. exists y. split; auto. apply audible_iff. apply negb_true_iff. auto.
  - assert (NA : forall y, In y (ri_notes i) -> ~ audible y).
    { intros y Hy AU. apply audible_iff in AU.
      assert (X : existsb (fun x => negb (qclose_def (rn_start x) (rn_end x))) (ri_notes i) = true) by (apply existsb_exists; exists y; rewrite AU; auto).
      congruence. }
    rewrite (H2 NA). apply (IH (n + 1) _ s1 total ltac:(lia) Fl TR1).
    destruct X1 as [->|X1]; [exfalso; apply (NA x); auto|eauto].
Qed.
Lemma too_many : forall f, (0 < mf_res f) -> Forall (fun k => 0 <= fst k < 24) (mf_keys f) -> Forall (fun t => (0 < snd t)%Q) (mf_tempos f) ->
  Forall (fun t => 0 < fst (fst t) <= 255 /\ exists k, 0 <= k <= 7 /\ snd (fst t) = 2 ^ k) (mf_times f) -> Forall inst_ok (mf_insts f) ->
  (exists j i n, (128 <= j)%nat /\ nth_error (mf_insts f) j = Some i /\ In n (ri_notes i) /\ audible n) -> read f = Err ValueError.
Proof.
  intros f F1 F2 F3 F4 F5 [j [i [n [J1 [J2 [J3 J4]]]]]]. unfold read.
  destruct (read_keys_ok (mf_keys f) (sig_default (0, false))) as [ks K]; [discriminate|auto|]. rewrite K. cbn [bind].
  destruct (read_tempos_ok (mf_res f) (mf_tempos f) (sig_default (inject_Z DEFAULT_QPM))) as [ts T]; [auto|discriminate|auto|]. rewrite T. cbn [bind].
  destruct (read_times_ok (mf_times f) (sig_default (4, 4))) as [tm [M [M1 M2]]]; [discriminate| |auto|].
  { intros x [<-|[]]. unfold pow_ok. cbn. split; [lia|exists 2; cbn; lia]. }
  rewrite M. cbn [bind]. unfold read_notes. rewrite enumerate_number.
  set (a := firstn 128 (mf_insts f)). set (b := skipn 128 (mf_insts f)).
  assert (AB : mf_insts f = a ++ b) by (symmetry; apply firstn_skipn).
  assert (LJ : (j < List.length (mf_insts f))%nat) by (apply nth_error_Some; congruence).
  assert (LA : List.length a = 128%nat) by (unfold a; rewrite firstn_length; lia).
  rewrite AB in F5. apply Forall_app in F5 as [Fa Fb].
  rewrite AB, number_app, each_app.
  destruct (read_notes_ok tm a [] (ms_empty (mf_res f)) 0%Q) as [s [total [N [TR [MR [T0 TOK]]]]]]; auto.
  { rewrite app_nil_l. lia. }
  { split; [|split; [|split]].
    - unfold tinv, ms_empty. cbn. apply inv_empty.
    - intros q. cbn [List.length Z.of_nat]. replace ((0 <=? q) && (q <? 0)) with false; auto.
      symmetry. apply andb_false_iff. destruct (Z.leb_spec 0 q); auto. right. apply Z.ltb_ge. lia.
    - intros q Hj. cbn in Hj. lia.
    - reflexivity. }
  { lra. } { apply tot_zero. }
  cbn [List.length Z.of_nat] in N. rewrite N. cbn [app] in TR.
  edestruct (beyond_insts tm b) as [st H]; [| |exact TR| |].
  - rewrite LA. lia. - exact Fb.
  - exists i, n. split; auto. rewrite AB in J2. rewrite nth_error_app2 in J2 by lia. eapply nth_error_In; eauto.
  - rewrite Z.add_0_l. rewrite H. destruct st. reflexivity.
Qed.
Lemma survivors_app : forall a seen b k, survivors seen (a ++ b) k ->
  exists k1 k2, k = k1 ++ k2 /\ survivors seen a k1 /\ survivors (seen ++ a) b k2.
Proof.
  induction a as [|x a IH]; intros seen b k H.
  - exists [], k. rewrite app_nil_r. split; [reflexivity|]. split; [constructor|exact H].
  - cbn [app] in H. inversion H as [|? ? k' H1 H2 H3|? ? k' H1 H2]; subst; clear H.
    + destruct (IH _ _ _ H3) as [k1 [k2 [E [S1 S2]]]]. exists (x :: k1), k2. rewrite <- app_assoc in S2. cbn [app] in S2.
      split; [subst; reflexivity|]. split; [apply sv_keep; auto|exact S2].
    + destruct (IH _ _ _ H2) as [k1 [k2 [E [S1 S2]]]]. exists k1, k2. rewrite <- app_assoc in S2. cbn [app] in S2.
      split; [subst; reflexivity|]. split; [apply sv_drop; auto|exact S2].
Qed.
Lemma survivors_lost : forall a m b n c k, survivors [] (a ++ m :: b ++ n :: c) k -> audible m -> (rn_end n < rn_end m)%Q ->
  exists k1 k2 k3, k = k1 ++ k2 ++ k3 /\ survivors [] a k1 /\ survivors a (m :: b) k2 /\ survivors (a ++ m :: b ++ [n]) c k3.
Proof.
  intros a m b n c k H AU L. destruct (survivors_app _ _ _ _ H) as [k1 [k' [E1 [S1 S2]]]]. cbn [app] in S2.
  change (m :: b ++ n :: c) with ((m :: b) ++ n :: c) in S2. destruct (survivors_app _ _ _ _ S2) as [k2 [k3 [E2 [S3 S4]]]].
  exists k1, k2, k3. split; [subst; reflexivity|]. split; [exact S1|]. split; [exact S3|].
  assert (X : (a ++ m :: b) ++ [n] = a ++ m :: b ++ [n]) by (rewrite <- app_assoc; reflexivity).
  inversion S4 as [|? ? k4 H1 H2 H3|? ? k4 H1 H2]; subst.
  - exfalso. specialize (H2 m). assert (In m (a ++ m :: b)) by (apply in_or_app; right; left; reflexivity). specialize (H2 H0 AU). lra.
  - rewrite X in H2. exact H2.
Qed.
