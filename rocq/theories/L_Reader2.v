(** Lemmas for midi_reader.py: controllers, the whole of read, and conversion back. *)
From Coq Require Import Lia Lqa Permutation Sorted.
From Verif Require Import PyBase M_SortedDict M_Note M_Events M_Seq M_Seqs M_Reader S_Seq S_Reader L_Base L_Sigs L_Note L_Seq L_SortedDict L_Seqs L_Reader.
Open Scope Z_scope.

Lemma create_old : forall s n P i j, tracks_are n P s -> 0 <= j < n -> 0 <= ri_prog i < 128 ->
  ms_create s j (ri_prog i) (ri_name i) (ri_drum i) = (Ok j, s).
Proof.
  intros s n P i j [I [R [T N]]] B PR. unfold ms_create.
  replace ((0 <=? ri_prog i) && (ri_prog i <? 128)) with true by (symmetry; apply andb_true_iff; split; [apply Z.leb_le|apply Z.ltb_lt]; lia).
  cbn [negb]. rewrite R. replace ((0 <=? j) && (j <? n)) with true by (symmetry; apply andb_true_iff; split; [apply Z.leb_le|apply Z.ltb_lt]; lia).
  reflexivity.
Qed.
Lemma tracks_weaken : forall n (P P' : Z -> seq -> Prop) s, tracks_are n P s -> (forall j q, 0 <= j < n -> P j q -> P' j q) -> tracks_are n P' s.
Proof. intros n P P' s [I [R [T N]]] H. split; auto. split; auto. split; auto. intros j Hj. destruct (T j Hj) as [q [A B]]. eauto. Qed.
Lemma ctrl_ok : forall (body : Z -> Z -> rinst -> mseqs -> res unit * mseqs) (Rel : Z -> rinst -> seq -> seq -> Prop) l pre s P,
  (forall k i s q, 0 <= k < 128 -> ready s k q -> inst_ok i -> exists s' q', body k k i s = (Ok tt, s') /\ upd s s' k q' /\ Rel k i q q') ->
  Forall inst_ok (pre ++ l) -> (List.length (pre ++ l) <= 128)%nat ->
  let n := Z.of_nat (List.length (pre ++ l)) in
  tracks_are n P s ->
  exists s', each (fun s p => read_inst (fun s => s) (fun _ s => s) (fun id i s => body id (fst p) i s) s p) s (number (Z.of_nat (List.length pre)) l) = (Ok tt, s') /\
    m_res s' = m_res s /\
    tracks_are n (fun j q => if j <? Z.of_nat (List.length pre) then P j q
                             else exists q0 i, P j q0 /\ nth_error (pre ++ l) (Z.to_nat j) = Some i /\ Rel j i q0 q) s'.
Proof.
  intros body Rel. induction l as [|i l IH]; intros pre s P B F LEN n TR.
  - cbn [number each]. exists s. split; auto. split; auto. eapply tracks_weaken; [exact TR|]. intros j q Hj Pj.
    subst n. rewrite app_nil_r in Hj. replace (j <? Z.of_nat (List.length pre)) with true by (symmetry; apply Z.ltb_lt; lia). auto.
  - cbn [number each]. unfold read_inst at 1. set (p := Z.of_nat (List.length pre)).
    assert (Li : List.length (pre ++ i :: l) = S (List.length pre + List.length l)) by (rewrite app_length; simpl; lia).
    assert (Fi : inst_ok i) by (rewrite Forall_forall in F; apply F; apply in_app_iff; simpl; auto).
    rewrite (create_old s n P i p TR) by (try apply Fi; subst n p; lia). cbn [fst].
    pose proof TR as TR0. destruct TR as [I [R [T N]]]. destruct (T p) as [q [Q1 Q2]]; [subst n p; lia|].
    assert (RD : ready s p q).
    { unfold ready. split; auto. split; [|split; auto; subst p; lia]. rewrite R.
      replace ((0 <=? p) && (p <? n)) with true; auto. symmetry; apply andb_true_iff; split; [apply Z.leb_le|apply Z.ltb_lt]; subst n p; lia. }
    destruct (B p i s q) as [s1 [q1 [E [U RL]]]]; auto; [subst p; lia|]. rewrite E.
    specialize (IH (pre ++ [i]) s1 (fun j q => if j =? p then exists q0, P j q0 /\ Rel j i q0 q else P j q) B).
    assert (AP : (pre ++ [i]) ++ l = pre ++ i :: l) by (rewrite <- app_assoc; reflexivity).
    rewrite AP in IH. cbv zeta in IH.
    assert (NN : Z.of_nat (List.length (pre ++ [i])) = p + 1) by (rewrite app_length; simpl; subst p; lia).
    rewrite NN in IH. destruct U as [U1 [U2 [U3 U4]]].
    destruct (IH F LEN) as [s' [A1 [A2 A3]]].
    + split; auto. split; [intros j; rewrite U2; apply R|]. split.
      * intros j Hj. rewrite U4. destruct (Z.eqb_spec p j).
        -- subst j. exists q1. split; auto. rewrite Z.eqb_refl. eauto.
        -- destruct (T j Hj) as [q' [Y1 Y2]]. exists q'. split; auto.
           replace (j =? p) with false by (symmetry; apply Z.eqb_neq; lia). auto.
      * intros j Hj. rewrite U4. replace (p =? j) with false by (symmetry; apply Z.eqb_neq; intros <-; apply Hj; subst n p; lia). auto.
    + exists s'. split; auto. split; [congruence|]. eapply tracks_weaken; [exact A3|]. intros j q' Hj. cbv beta.
      destruct (Z.ltb_spec j (p + 1)).
      * destruct (Z.eqb_spec j p).
        -- subst j. intros [q0 [X1 X2]]. replace (p <? p) with false by (symmetry; apply Z.ltb_ge; lia).
           exists q0, i. split; auto. split; auto. subst p. rewrite Nat2Z.id. rewrite nth_error_app2 by lia. rewrite Nat.sub_diag. reflexivity.
        -- replace (j <? p) with true by (symmetry; apply Z.ltb_lt; lia). auto.
      * replace (j <? p) with false by (symmetry; apply Z.ltb_ge; lia).
        replace (j =? p) with false by (symmetry; apply Z.eqb_neq; lia). auto.
Qed.

(** Pitch bends. *)
Definition late (total t : Q) : bool := Qeq_bool total 0 || Qle_bool total t.
Definition bends_loop_post (total : Q) (k : Z) (i : rinst) (l : list (Z * Q)) (q q' : seq) : Prop :=
  q_instr q' = q_instr q /\ q_res q' = q_res q /\ q_notes q' = q_notes q /\ q_ccs q' = q_ccs q /\
  exists w, q_bends q' = q_bends q ++ w /\ Forall2 same_bend (filter (fun b => late total (snd b)) l) w.
Lemma bends_loop : forall total k i l s q, 0 <= k < 128 -> ready s k q -> 0 <= ri_prog i < 128 ->
  Forall (fun b => -8191 <= fst b <= 8191 /\ (0 <= snd b)%Q) l ->
  exists s' q', each (read_bend total k k i) s l = (Ok tt, s') /\ upd s s' k q' /\ bends_loop_post total k i l q q'.
Proof.
  intros total k i. induction l as [|[a t] l IH]; intros s q K R PR F.
  - exists s, q. split; auto. split; [apply upd_refl; apply R|]. unfold bends_loop_post. split; [reflexivity|]. split; [reflexivity|]. split; [reflexivity|]. split; [reflexivity|]. exists []. rewrite app_nil_r. split; [reflexivity|constructor].
  - inversion F as [|? ? [F1 F2] Fl]; subst. cbn [fst snd] in *. cbn [each]. unfold read_bend at 1. cbn [fst snd].
    unfold bends_loop_post. cbn [filter snd].
    change (Qeq_bool total 0 || Qle_bool total t) with (late total t). destruct (late total t) eqn:L.
    + rewrite (get_track_ready _ _ _ _ _ _ R). unfold b_new.
      replace ((-8191 <=? a) && (a <=? 8191)) with true by (symmetry; apply andb_true_iff; split; apply Z.leb_le; lia).
      replace ((0 <=? ri_prog i) && (ri_prog i <=? 127)) with true by (symmetry; apply andb_true_iff; split; apply Z.leb_le; lia).
      replace ((0 <=? k) && (k <=? 127)) with true by (symmetry; apply andb_true_iff; split; apply Z.leb_le; lia).
      cbn [negb]. replace (Qltb t 0) with false by (symmetry; unfold Qltb; apply Bool.negb_false_iff; apply Qle_bool_iff; auto).
      assert (MX : (Qmaxb t 0 == t)%Q).
      { unfold Qmaxb. destruct (Qle_bool t 0) eqn:E; [|reflexivity]. apply Qle_bool_iff in E. lra. }
      set (b := mkB a _ _ _ _). set (q1 := q_add_bend q b). set (s1 := put_track s k q1).
      assert (U : upd s s1 k q1) by (apply upd_put; apply R).
      assert (R1 : ready s1 k q1) by (apply (ready_upd s s1 k q q1); auto).
      destruct (IH s1 q1 K R1 PR Fl) as [s2 [q2 [E [U2 [A [B [C [D [w [W1 W2]]]]]]]]]].
      exists s2, q2. rewrite E. split; auto. split; [eapply upd_trans; eauto|].
      split; auto. split; auto. split; auto. split; auto. exists (b :: w). split.
      * rewrite W1. unfold q1, q_add_bend. cbn [q_bends]. rewrite <- app_assoc. reflexivity.
      * constructor; auto. unfold same_bend. cbn. split; auto. exists (Qmaxb t 0). auto.
    + destruct (IH s q K R PR Fl) as [s2 [q2 [E [U2 X]]]]. exists s2, q2. auto.
Qed.
Definition ccs_loop_post (total : Q) (k : Z) (i : rinst) (l : list (Z * Z * Q)) (q q' : seq) : Prop :=
  q_instr q' = q_instr q /\ q_res q' = q_res q /\ q_notes q' = q_notes q /\ q_bends q' = q_bends q /\
  exists w, q_ccs q' = q_ccs q ++ w /\ Forall2 same_cc (filter (fun c => late total (snd c)) l) w.
Lemma ccs_loop : forall total k i l s q, 0 <= k < 128 -> ready s k q -> 0 <= ri_prog i < 128 ->
  Forall (fun c => 0 <= fst (fst c) <= 127 /\ 0 <= snd (fst c) <= 127 /\ (0 <= snd c)%Q) l ->
  exists s' q', each (read_cc total k k i) s l = (Ok tt, s') /\ upd s s' k q' /\ ccs_loop_post total k i l q q'.
Proof.
  intros total k i. induction l as [|[[a v] t] l IH]; intros s q K R PR F.
  - exists s, q. split; auto. split; [apply upd_refl; apply R|]. unfold ccs_loop_post. split; [reflexivity|]. split; [reflexivity|]. split; [reflexivity|]. split; [reflexivity|]. exists []. rewrite app_nil_r. split; [reflexivity|constructor].
  - inversion F as [|? ? [F1 [F2 F3]] Fl]; subst. cbn [fst snd] in *. cbn [each]. unfold read_cc at 1.
    unfold ccs_loop_post. cbn [filter snd].
    change (Qeq_bool total 0 || Qle_bool total t) with (late total t). destruct (late total t) eqn:L.
    + rewrite (get_track_ready _ _ _ _ _ _ R).
      set (b := cc_new _ _ _ _ _ _ _ _ _). set (q1 := q_add_cc q b). set (s1 := put_track s k q1).
      assert (U : upd s s1 k q1) by (apply upd_put; apply R).
      assert (R1 : ready s1 k q1) by (apply (ready_upd s s1 k q q1); auto).
      destruct (IH s1 q1 K R1 PR Fl) as [s2 [q2 [E [U2 [A [B [C [D [w [W1 W2]]]]]]]]]].
      exists s2, q2. rewrite E. split; auto. split; [eapply upd_trans; eauto|].
      split; auto. split; auto. split; auto. split; auto. exists (b :: w). split.
      * rewrite W1. unfold q1, q_add_cc. cbn [q_ccs]. rewrite <- app_assoc. reflexivity.
      * constructor; auto. unfold same_cc, b, cc_new. cbn [cc_number cc_value cc_time fst snd].
        unfold clamp255. split; [lia|]. split; [lia|]. rewrite qmaxb_pos by auto. reflexivity.
    + destruct (IH s q K R PR Fl) as [s2 [q2 [E [U2 X]]]]. exists s2, q2. auto.
Qed.


Lemma file_end_pos : forall f t, file_ok f -> file_end f t -> has_audible f -> (0 < t)%Q.
Proof.
  intros f t F [H _] [i [n [A [B C]]]].
  assert (X : (rn_end n <= t)%Q) by (apply H; exists i; auto).
  destruct F as [_ [_ [_ [_ [F _]]]]]. rewrite Forall_forall in F. destruct (F i A) as [_ [N _]]. rewrite Forall_forall in N.
  pose proof (audible_lt n (N n B) C). destruct (N n B) as [_ [_ [? _]]]. lra.
Qed.
Lemma file_end_none : forall f t, file_end f t -> ~ (t == 0)%Q -> has_audible f.
Proof. intros f t [_ [[H _]|[n [[i [A [B C]]] _]]]] N; [contradiction|exists i, n; auto]. Qed.
Lemma late_selects : forall A (time : A -> Q) f total l, file_ok f -> file_end f total ->
  selects (fun b => has_audible f -> (total <= time b)%Q) l (filter (fun b => late total (time b)) l).
Proof.
  intros A time f total l F H. apply selects_filter. intros b. unfold late.
  rewrite orb_true_iff, Qle_bool_iff, Qeq_bool_iff. split.
  - intros [Z|L] AU; auto. pose proof (file_end_pos f total F H AU). lra.
  - intros K. destruct (Qeq_dec total 0); auto. right. apply K. eapply file_end_none; eauto.
Qed.
Lemma tot_file_end : forall f t, tot_ok (flat_map ri_notes (mf_insts f)) t -> file_end f t.
Proof.
  intros f t [H1 H2]. assert (I : forall n, In n (flat_map ri_notes (mf_insts f)) <-> exists i, In i (mf_insts f) /\ In n (ri_notes i)).
  { intros n. rewrite in_flat_map. reflexivity. }
  split.
  - intros n [i [A [B C]]]. apply H1; auto. apply I. eauto.
  - destruct H2 as [[A B]|[n [A [B C]]]].
    + left. split; auto. intros n [i [X [Y Z]]]. apply (B n); auto. apply I. eauto.
    + right. exists n. split; auto. apply I in A. destruct A as [i [X Y]]. eauto.
Qed.
Lemma conv_same : forall times i l, Forall2 same_note l (map (conv times i) l).
Proof. intros times i. induction l; simpl; constructor; auto. unfold same_note, conv. cbn. auto. Qed.
Lemma conv_sig : forall times i l, Forall (fun n => (n_num n, n_den n) = time_signature times (n_start n) /\ n_program n = ri_prog i /\ n_drum n = ri_drum i) (map (conv times i) l).
Proof. intros times i. induction l; simpl; constructor; auto. unfold conv. cbn. destruct (time_signature times (rn_start a)); auto. Qed.

Lemma read_spec : forall f, file_ok f -> exists so, read f = Ok so /\ file_end f (so_total so) /\
  tracks_are (Z.of_nat (List.length (mf_insts f))) (fun j q => exists i, nth_error (mf_insts f) (Z.to_nat j) = Some i /\
     i_num (q_instr q) = ri_prog i /\ i_drum (q_instr q) = ri_drum i /\ q_res q = mf_res f /\
     q_notes q = map (conv (so_times so) i) (kept 0 (ri_notes i)) /\
     Forall2 same_bend (filter (fun b => late (so_total so) (snd b)) (ri_bends i)) (q_bends q) /\
     Forall2 same_cc (filter (fun b => late (so_total so) (snd b)) (ri_ccs i)) (q_ccs q)) (so_ms so).
Proof.
  intros f [F1 [F2 [F3 [F4 [F5 F6]]]]]. unfold read.
  destruct (read_keys_ok (mf_keys f) (sig_default (0, false))) as [ks K]; [discriminate|auto|]. rewrite K. cbn [bind].
  destruct (read_tempos_ok (mf_res f) (mf_tempos f) (sig_default (inject_Z DEFAULT_QPM))) as [ts T]; [auto|discriminate|auto|]. rewrite T. cbn [bind].
  destruct (read_times_ok (mf_times f) (sig_default (4, 4))) as [tm [M [M1 M2]]]; [discriminate| |auto|].
  { intros x [<-|[]]. unfold pow_ok. cbn. split; [lia|exists 2; cbn; lia]. }
  rewrite M. cbn [bind]. unfold read_notes. rewrite enumerate_number.
  destruct (read_notes_ok tm (mf_insts f) [] (ms_empty (mf_res f)) 0%Q) as [s [total [N [TR [MR [T0 TOK]]]]]]; auto.
  { split; [|split; [|split]].
    - unfold tinv, ms_empty. cbn. apply inv_empty.
    - intros j. cbn [List.length Z.of_nat]. replace ((0 <=? j) && (j <? 0)) with false; auto.
      symmetry. apply andb_false_iff. destruct (Z.leb_spec 0 j); auto. right. apply Z.ltb_ge. lia.
    - intros j Hj. cbn in Hj. lia.
    - reflexivity. }
  { lra. } { apply tot_zero. }
  cbn [List.length Z.of_nat] in N. change (fun id i st => each (read_note tm id i) st (ri_notes i)) with (fun (id : Z) (i : rinst) (st : mseqs * Q) => each (read_note tm id i) st (ri_notes i)) in N.
  rewrite N. cbn [app] in *. cbn [m_res ms_empty] in MR, TR.
  assert (FE : file_end f total) by (apply tot_file_end; auto).
  unfold read_bends, read_ctrl. rewrite enumerate_number.
  edestruct (ctrl_ok (fun id k i s => each (read_bend total id k i) s (ri_bends i)) (fun k i q q' => bends_loop_post total k i (ri_bends i) q q') (mf_insts f) [] s) with (2 := F5) (3 := F6) (4 := TR) as [s1 [B1 [B2 B3]]].
  { intros k i s0 q Hk R I. destruct I as [I1 [I2 [I3 I4]]]. apply bends_loop; auto. }
  cbn [List.length Z.of_nat app] in B1, B3. rewrite B1.
  unfold read_ccs, read_ctrl. rewrite enumerate_number.
  edestruct (ctrl_ok (fun id k i s => each (read_cc total id k i) s (ri_ccs i)) (fun k i q q' => ccs_loop_post total k i (ri_ccs i) q q') (mf_insts f) [] s1) with (2 := F5) (3 := F6) (4 := B3) as [s2 [C1 [C2 C3]]].
  { intros k i s0 q Hk R I. destruct I as [I1 [I2 [I3 I4]]]. apply ccs_loop; auto. }
  cbn [List.length Z.of_nat app] in C1, C3. rewrite C1.
  eexists. split; [reflexivity|]. cbn [so_total so_ms so_times]. split; auto.
  eapply tracks_weaken; [exact C3|]. intros j q Hj. cbv beta.
  replace (j <? 0) with false by (symmetry; apply Z.ltb_ge; lia).
  intros [q1 [i1 [[q0 [i0 [[_ [i [X1 [X2 [X3 X4]]]]] [Y1 Y2]]]] [Z1 Z2]]]].
  assert (i0 = i) by congruence. assert (i1 = i) by congruence. subst i0 i1. exists i. split; auto.
  destruct X2 as [W1 [W2 [W3 W4]]].
  destruct Y2 as [P1 [P2 [P3 [P4 [w [P5 P6]]]]]]. destruct Z2 as [Q1 [Q2 [Q3 [Q4 [w' [Q5 Q6]]]]]].
  split; [congruence|]. split; [congruence|]. split; [congruence|]. split; [congruence|].
  split.
  - rewrite Q4, P5, X4. exact P6.
  - rewrite Q5, P4, X3. exact Q6.
Qed.
