From Coq Require Import Lia Lqa Qround Sorted Permutation.
From Verif Require Import PyBase M_SortedDict M_Note M_Events M_Seq M_Seqs M_SeqMore S_Seq S_Seqs S_SeqMore
  L_Base L_SortedDict L_Events L_Seq L_Seqs.
Open Scope Z_scope.

(** ** cached answers *)
Lemma x_seq_run : forall ops st, x_seq (x_run st ops) = q_run (x_seq st) (changes ops).
Proof.
  induction ops as [|o ops IH]; intros st; [reflexivity|]. change (x_run st (o :: ops)) with (x_run (snd (x_step st o)) ops).
  rewrite IH. destruct o as [c|l| |[off|]]; cbn [changes flat_map app x_step]; try reflexivity.
  - destruct (x_tempo st); reflexivity.
  - destruct (find _ (x_last st)); reflexivity.
Qed.
Lemma x_tempos_run : forall ops st, x_tempos (x_run st ops) = tempos_after (x_tempos st) ops.
Proof.
  induction ops as [|o ops IH]; intros st; [reflexivity|]. change (x_run st (o :: ops)) with (x_run (snd (x_step st o)) ops).
  rewrite IH. unfold tempos_after at 2. cbn [fold_left]. fold (tempos_after (match o with XTempos l' => l' | _ => x_tempos st end) ops).
  f_equal. destruct o as [c|l| |[off|]]; cbn [x_step]; try reflexivity.
  - destruct (x_tempo st); reflexivity.
  - destruct (find _ (x_last st)); reflexivity.
Qed.
Lemma find_none_run : forall off ops st, Forall (fun o => ~ asks_last off o) ops ->
  find (fun p => Qeq_bool (fst p) off) (x_last st) = None -> find (fun p => Qeq_bool (fst p) off) (x_last (x_run st ops)) = None.
Proof.
  induction ops as [|o ops IH]; intros st H F; auto. change (x_run st (o :: ops)) with (x_run (snd (x_step st o)) ops).
  inversion H as [|? ? H1 H2]; subst. apply IH; auto. destruct o as [c|l| |[x|]]; cbn [x_step]; auto.
  - destruct (x_tempo st); auto.
  - destruct (find (fun p => Qeq_bool (fst p) x) (x_last st)); auto. cbn [snd x_last find fst].
    destruct (Qeq_bool x off) eqn:E; auto. apply Qeq_bool_iff in E. exfalso. apply H1. exact E.
Qed.
Lemma find_ext : forall (l : list (Q * Q)) a b, (a == b)%Q -> find (fun p => Qeq_bool (fst p) a) l = find (fun p => Qeq_bool (fst p) b) l.
Proof.
  induction l as [|p l IH]; intros a b E; auto. cbn [find]. rewrite (IH a b E).
  replace (Qeq_bool (fst p) b) with (Qeq_bool (fst p) a); auto.
  destruct (Qeq_bool (fst p) a) eqn:A, (Qeq_bool (fst p) b) eqn:B; auto.
  - apply Qeq_bool_iff in A. apply Qeq_bool_neq in B. exfalso. apply B. lra.
  - apply Qeq_bool_iff in B. apply Qeq_bool_neq in A. exfalso. apply A. lra.
Qed.
Lemma find_some_run : forall off p ops st, find (fun p => Qeq_bool (fst p) off) (x_last st) = Some p ->
  find (fun p => Qeq_bool (fst p) off) (x_last (x_run st ops)) = Some p.
Proof.
  induction ops as [|o ops IH]; intros st F; auto. change (x_run st (o :: ops)) with (x_run (snd (x_step st o)) ops).
  apply IH. destruct o as [c|l| |[x|]]; cbn [x_step]; auto.
  - destruct (x_tempo st); auto.
  - destruct (find (fun p => Qeq_bool (fst p) x) (x_last st)) eqn:FX; auto. cbn [snd x_last find fst].
    destruct (Qeq_bool x off) eqn:E; auto. apply Qeq_bool_iff in E. rewrite (find_ext _ x off E) in FX. congruence.
Qed.
Lemma end_of_last_ok : forall l, end_of_last l (max_end l).
Proof.
  intros l. destruct (max_end_spec l) as [A [B C]]. destruct l as [|n l]; cbn [end_of_last]; [rewrite C; auto; reflexivity|].
  split; auto. destruct B as [m [M1 M2]]; [discriminate|]. exists m. rewrite M2. split; auto. reflexivity.
Qed.
Lemma last_first : forall s tempos ops off, Forall (fun o => ~ asks_last off o) ops ->
  let st := x_run (x_new s tempos) ops in
  exists t, end_of_last (q_notes (q_run s (changes ops))) t /\ fst (x_step st (XLast (Some off))) = Some (t + off)%Q.
Proof.
  intros s tempos ops off H st. exists (max_end (q_notes (q_run s (changes ops)))). split; [apply end_of_last_ok|].
  cbn [x_step]. assert (F := find_none_run off ops (x_new s tempos) H eq_refl). fold st in F. rewrite F. cbn [fst].
  unfold seq_last_event, st. rewrite x_seq_run. reflexivity.
Qed.
Lemma last_frozen : forall st off off' ops, (off' == off)%Q ->
  fst (x_step (x_run (snd (x_step st (XLast (Some off)))) ops) (XLast (Some off'))) = fst (x_step st (XLast (Some off))).
Proof.
  intros st off off' ops E. cbn [x_step]. rewrite (find_ext _ off' off E).
  destruct (find (fun p => Qeq_bool (fst p) off) (x_last st)) as [p|] eqn:F; cbn [snd fst].
  - rewrite (find_some_run off p); auto.
  - rewrite (find_some_run off (off, seq_last_event (x_seq st) off)); auto. cbn [x_last find fst].
    assert (Qeq_bool off off = true) as -> by (apply Qeq_bool_iff; reflexivity). reflexivity.
Qed.
Lemma tempo_none_run : forall ops st, ~ In XTempo ops -> x_tempo (x_run st ops) = x_tempo st.
Proof.
  induction ops as [|o ops IH]; intros st H; auto. change (x_run st (o :: ops)) with (x_run (snd (x_step st o)) ops).
  rewrite IH by (intro; apply H; simpl; auto). destruct o as [c|l| |[x|]]; cbn [x_step]; auto.
  - exfalso. apply H. simpl. auto.
  - destruct (find _ (x_last st)); auto.
Qed.
Lemma tempo_some_run : forall ops st a, x_tempo st = Some a -> x_tempo (x_run st ops) = Some a.
Proof.
  induction ops as [|o ops IH]; intros st a H; auto. change (x_run st (o :: ops)) with (x_run (snd (x_step st o)) ops).
  apply IH. destruct o as [c|l| |[x|]]; cbn [x_step]; auto.
  - rewrite H. auto.
  - destruct (find _ (x_last st)); auto.
Qed.
Lemma tempo_answer : forall s tempos ops, ~ In XTempo ops ->
  let l := tempos_after tempos ops in let a := fst (x_step (x_run (x_new s tempos) ops) XTempo) in
  (l = [] -> a = Some 480%Q) /\
  (l <> [] -> (exists p, In p l /\ (fst p == 0)%Q) -> exists z, a = Some z /\ (z == 0)%Q) /\
  (l <> [] -> (forall p, In p l -> ~ (fst p == 0)%Q) -> a = None).
Proof.
  intros s tempos ops H l. cbn [x_step]. rewrite tempo_none_run by auto. cbn [x_new x_tempo fst].
  rewrite x_tempos_run. cbn [x_tempos x_new]. fold l. unfold seq_initial_tempo. cbv zeta. split; [|split].
  - intros ->. reflexivity.
  - intros N [p [P1 P2]]. destruct l as [|p0 r] eqn:E; [contradiction|]. rewrite <- E in *.
    destruct (find (fun p => Qeq_bool (fst p) 0) l) as [q|] eqn:F.
    + apply find_some in F as [_ F]. apply Qeq_bool_iff in F. exists (fst q). auto.
    + exfalso. assert (X := find_none _ _ F p P1). cbv beta in X. apply Qeq_bool_neq in X. auto.
  - intros N A. destruct l as [|p0 r] eqn:E; [contradiction|]. rewrite <- E in *.
    destruct (find (fun p => Qeq_bool (fst p) 0) l) as [q|] eqn:F; auto.
    apply find_some in F as [F1 F2]. apply Qeq_bool_iff in F2. exfalso. eapply A; eauto.
Qed.
Lemma tempo_frozen : forall st ops,
  fst (x_step (x_run (snd (x_step st XTempo)) ops) XTempo) = fst (x_step st XTempo).
Proof.
  intros st ops. cbn [x_step]. destruct (x_tempo st) as [a|] eqn:E; cbn [snd fst].
  - rewrite (tempo_some_run ops st a E). reflexivity.
  - rewrite (tempo_some_run ops _ (seq_initial_tempo (x_tempos st))); reflexivity.
Qed.

(** ** orders *)
Lemma obj_asym : forall a b, obj_ltb a b = true -> obj_ltb b a = false.
Proof. intros [i a] [j b]. unfold obj_ltb. cbn [fst snd]. destruct (Z.eqb_spec (i_num (q_instr a)) (i_num (q_instr b))) as [E|E].
  - rewrite E, Z.eqb_refl, Z.ltb_lt. intros. apply Z.ltb_ge. lia.
  - rewrite Z.ltb_lt. intros. assert (i_num (q_instr b) =? i_num (q_instr a) = false) as -> by (apply Z.eqb_neq; auto). apply Z.ltb_ge. lia.
Qed.
Definition obj_lt (a b : Z * seq) : Prop :=
  i_num (q_instr (snd a)) < i_num (q_instr (snd b)) \/ (i_num (q_instr (snd a)) = i_num (q_instr (snd b)) /\ fst a < fst b).
Lemma obj_ltb_spec : forall a b, obj_ltb a b = true <-> obj_lt a b.
Proof.
  intros [i a] [j b]. unfold obj_ltb, obj_lt. cbn [fst snd]. destruct (Z.eqb_spec (i_num (q_instr a)) (i_num (q_instr b))); rewrite Z.ltb_lt; lia.
Qed.
Lemma obj_ltb_false : forall a b, obj_ltb a b = false <-> ~ obj_lt a b.
Proof. intros. rewrite <- obj_ltb_spec. destruct (obj_ltb a b); split; congruence. Qed.
Lemma sort_objs : forall l : list (Z * seq), NoDup (map fst l) -> let r := py_sort obj_ltb l in
  Permutation l r /\
  StronglySorted (fun a b => i_num (q_instr (snd a)) < i_num (q_instr (snd b)) \/
     (i_num (q_instr (snd a)) = i_num (q_instr (snd b)) /\ fst a < fst b)) r.
Proof.
  intros l N r. assert (P := py_sort_perm obj_ltb l). fold r in P. split; auto.
  assert (S1 : StronglySorted (fun a b => obj_ltb b a = false) r).
  { apply py_sort_sorted; [apply obj_asym|]. intros a b c. rewrite !obj_ltb_false. unfold obj_lt. lia. }
  assert (NR : NoDup (map fst r)) by (eapply Permutation_NoDup; [apply Permutation_map; exact P|exact N]).
  clear - S1 NR. induction S1 as [|a m S1 IH F]; constructor; inversion NR as [|? ? N1 N2]; subst; auto.
  apply Forall_forall. intros b Hb. rewrite Forall_forall in F. specialize (F b Hb). apply obj_ltb_false in F. unfold obj_lt in F.
  assert (fst a <> fst b) by (intro E; apply N1; rewrite E; apply in_map; auto). lia.
Qed.
Lemma sort_instr : forall l, let r := py_sort instr_ltb l in
  Permutation l r /\ StronglySorted (fun a b => i_num a <= i_num b) r.
Proof.
  intros l r. split; [apply py_sort_perm|]. assert (S1 : StronglySorted (fun a b => instr_ltb b a = false) r).
  { apply py_sort_sorted; unfold instr_ltb; intros a b; [rewrite Z.ltb_lt, Z.ltb_ge; lia|intros c; rewrite !Z.ltb_ge; lia]. }
  induction S1 as [|a m S1 IH F]; constructor; auto. eapply Forall_impl; [|exact F]. intros b. unfold instr_ltb. rewrite Z.ltb_ge. auto.
Qed.

(** ** counts *)
Lemma zset_go : forall l s, NoDup s -> let r := fold_left (fun s k => if existsb (Z.eqb k) s then s else s ++ [k]) l s in
  NoDup r /\ forall x, In x r <-> In x s \/ In x l.
Proof.
  induction l as [|k l IH]; intros s N r; [split; [auto|]; intro x; simpl; tauto|]. unfold r. cbn [fold_left].
  destruct (existsb (Z.eqb k) s) eqn:E.
  - apply existsb_exists in E as [y [Y1 Y2]]. apply Z.eqb_eq in Y2. subst y. destruct (IH s N) as [A B]. split; auto.
    intro x. rewrite B. simpl. split; [tauto|]. intros [?|[<-|?]]; auto.
  - assert (K : ~ In k s).
    { intro K. assert (existsb (Z.eqb k) s = true) by (apply existsb_exists; exists k; split; auto; apply Z.eqb_refl). congruence. }
    destruct (IH (s ++ [k])) as [A B].
    { apply (Permutation_NoDup (l := k :: s)); [apply Permutation_cons_append|constructor; auto]. }
    split; auto. intro x. rewrite B, in_app_iff. simpl. tauto.
Qed.
Lemma zset_count : forall l, distinct_count l (List.length (zset l)).
Proof.
  intros l. destruct (zset_go l [] (NoDup_nil _)) as [A B]. exists (zset l). split; [exact A|]. split; auto.
  intro x. unfold zset. rewrite B. simpl. tauto.
Qed.
Lemma distinct_unique : forall l n m, distinct_count l n -> distinct_count l m -> n = m.
Proof.
  intros l n m [u [U1 [U2 U3]]] [v [V1 [V2 V3]]]. subst. apply Permutation_length. apply NoDup_Permutation; auto. intro x. rewrite U2, V2. tauto.
Qed.
Lemma distinct_le : forall l n, distinct_count l n -> (n <= List.length l)%nat.
Proof. intros l n [u [U1 [U2 <-]]]. apply NoDup_incl_length; auto. intros x Hx. apply U2. auto. Qed.
Lemma values_length : forall s, tinv s -> List.length (ms_values s) = sd_len (m_tracks s) /\ List.length (sd_keys (m_tracks s)) = sd_len (m_tracks s).
Proof.
  intros s I. unfold sd_len. rewrite <- (map_length fst (od (m_tracks s))). 
  assert (P := inv_perm _ _ I). rewrite (Permutation_length P). split; auto.
  unfold ms_values. assert (K : forall k, In k (sd_keys (m_tracks s)) -> exists q, trk s k = Some q).
  { intros k Hk. apply (keys_iff Z.ltb Z.eqb zsto (m_tracks s) k I) in Hk. exact Hk. }
  clear P. induction (sd_keys (m_tracks s)) as [|k ks IH]; auto. cbn [flat_map]. destruct (K k) as [q ->]; [simpl; auto|].
  cbn [app List.length]. rewrite IH; auto. intros; apply K; simpl; auto.
Qed.
(** [ks] and [qs] list the track keys in ascending order and the tracks stored under them. *)
Lemma values_keys : forall s, tinv s ->
  Forall2 (fun k q => trk s k = Some q) (sd_keys (m_tracks s)) (ms_values s) /\ StronglySorted Z.lt (sd_keys (m_tracks s)) /\
  (forall k, In k (sd_keys (m_tracks s)) <-> trk s k <> None).
Proof.
  intros s I. assert (KI : forall k, In k (sd_keys (m_tracks s)) <-> exists q, trk s k = Some q) by (intro k; apply (keys_iff Z.ltb Z.eqb zsto (m_tracks s) k I)).
  split; [|split].
  - assert (K : forall k, In k (sd_keys (m_tracks s)) -> exists q, trk s k = Some q) by (intros k Hk; apply KI; auto).
    unfold ms_values. clear KI. induction (sd_keys (m_tracks s)) as [|k ks IH]; [constructor|]. cbn [flat_map].
    destruct (K k) as [q E]; [simpl; auto|]. rewrite E. cbn [app]. constructor; auto. apply IH. intros; apply K; simpl; auto.
  - assert (S1 := inv_sorted _ _ I). clear KI. induction S1 as [|a l S1 IH F]; constructor; auto.
    eapply Forall_impl; [|exact F]. intros b Hb. apply Z.ltb_lt. exact Hb.
  - intro k. rewrite KI. destruct (trk s k) as [q|]; split; intros X; try congruence; eauto. destruct X; discriminate.
Qed.
Lemma counts_ok : forall res ops, let s := ms_run (ms_empty res) ops in
  exists ks qs, StronglySorted Z.lt ks /\ (forall k, In k ks <-> trk s k <> None) /\
    Forall2 (fun k q => trk s k = Some q) ks qs /\
    num_track s = List.length ks /\ ms_instruments s = map q_instr qs /\
    distinct_count (map (fun q => i_num (q_instr q)) qs) (num_instruments s) /\ (num_instruments s <= num_track s)%nat.
Proof.
  intros res ops s. assert (I : tinv s) by (apply tinv_run, tinv_empty).
  destruct (values_keys s I) as [A [B C]]. destruct (values_length s I) as [L1 L2].
  exists (sd_keys (m_tracks s)), (ms_values s). split; auto. split; auto. split; auto. split; [symmetry; exact L2|].
  split; [reflexivity|]. assert (D := zset_count (map (fun q => i_num (q_instr q)) (ms_values s))). split; [exact D|].
  apply distinct_le in D. unfold num_instruments, num_track. rewrite map_length, L1 in D. exact D.
Qed.
Lemma list_counts : forall res l s, same_number_mergeable l -> ms_of_list res l = Ok s ->
  num_instruments s = num_track s /\ distinct_count (map (fun q => i_num (q_instr q)) l) (num_track s) /\
  (forall k, instrument_midi_seq_len s k =
     fold_right Nat.add 0%nat (map (fun q => List.length (q_notes q)) (filter (fun q => i_num (q_instr q) =? k) l))).
Proof.
  intros res l s M E. destruct (add_all_spec l [] (ms_empty res) (linv_empty res)) as [A _].
  destruct A as [s' [E' I]]; [exact M|intros a q []|]. unfold ms_of_list in E. assert (s' = s) by congruence. subst s'. simpl in I.
  destruct I as [It Ir Ii Inn Io]. destruct (values_keys s It) as [V1 [V2 V3]]. destruct (values_length s It) as [L1 L2].
  assert (KQ : map (fun q => i_num (q_instr q)) (ms_values s) = sd_keys (m_tracks s)).
  { clear - V1 Io. induction V1 as [|k q ks qs H F IH]; auto. cbn [map]. destruct (Io k q H) as [-> _]. f_equal. auto. }
  assert (DK : distinct_count (map (fun q => i_num (q_instr q)) l) (num_track s)).
  { exists (sd_keys (m_tracks s)). split; [|split; [|exact L2]].
    - clear - V2. induction V2 as [|a m V2 IH F]; constructor; auto. intro X. rewrite Forall_forall in F. specialize (F a X). lia.
    - intro x. rewrite V3, in_map_iff. split.
      + intros N. destruct (trk s x) as [t|] eqn:T; [|contradiction]. destruct (Exists_dec (fun q => i_num (q_instr q) = x) l) as [X|X].
        * intro q. apply Z.eq_dec.
        * apply Exists_exists in X as [q [Q1 Q2]]. eauto.
        * exfalso. assert (Z0 : trk s x = None). { apply Inn. intros q Hq Eq. apply X. apply Exists_exists. eauto. } congruence.
      + intros [q [Q1 Q2]] T. apply (proj1 (Inn x)) with (q := q) in T; auto. }
  split; [|split; auto].
  - apply (distinct_unique (map (fun q => i_num (q_instr q)) (ms_values s))); [apply zset_count|].
    rewrite KQ. exists (sd_keys (m_tracks s)). split; [|split; [tauto|exact L2]].
    clear - V2. induction V2 as [|a m V2 IH F]; constructor; auto. intro X. rewrite Forall_forall in F. specialize (F a X). lia.
  - intro k. unfold instrument_midi_seq_len. fold (numbered k l).
    assert (LC : forall m : list seq, fold_right Nat.add 0%nat (map (fun q => List.length (q_notes q)) m) = List.length (List.concat (map q_notes m))).
    { induction m as [|q m IH]; auto. cbn [map fold_right List.concat]. rewrite app_length, IH. auto. }
    rewrite LC. destruct (trk s k) as [t|] eqn:T.
    + destruct (Io k t T) as [_ [P _]]. apply Permutation_length. exact P.
    + assert (numbered k l = []) as ->; auto. unfold numbered. rewrite Inn in T. clear - T. induction l as [|q l IH]; auto. cbn [filter].
      assert (i_num (q_instr q) =? k = false) as -> by (apply Z.eqb_neq; apply T; simpl; auto). apply IH. intros; apply T; simpl; auto.
Qed.
Lemma len_ok : forall res ops k, let s := ms_run (ms_empty res) ops in
  (forall q, trk s k = Some q -> instrument_midi_seq_len s k = List.length (q_notes q)) /\
  (trk s k = None -> instrument_midi_seq_len s k = 0%nat).
Proof. intros res ops k s. unfold instrument_midi_seq_len. split; [intros q ->|intros ->]; reflexivity. Qed.

(** ** resolution *)
Lemma resolution_ok : forall s v, q_res (q_set_resolution s v) = v /\ same_but_resolution s (q_set_resolution s v).
Proof.
  intros s v. unfold q_set_resolution. cbv zeta. cbn [q_res]. rewrite Z.eqb_refl. cbn [negb q_res].
  repeat split.
Qed.

(** ** relative velocities *)
Lemma clip_spec : forall x, (0 <= Qminb 127 (Qmaxb 0 x) <= 127)%Q.
Proof.
  intros x. destruct (Qmaxb_spec 0 x) as [[A ->]|[A ->]]; destruct (Qminb_spec 127 x) as [[B C]|[B C]]; rewrite ?C; try lra;
  destruct (Qminb_spec 127 0) as [[D E]|[D E]]; rewrite E; lra.
Qed.
Lemma clip_mono : forall x y, (x <= y)%Q -> (Qminb 127 (Qmaxb 0 x) <= Qminb 127 (Qmaxb 0 y))%Q.
Proof.
  intros x y H. destruct (Qmaxb_spec 0 x) as [[A ->]|[A ->]], (Qmaxb_spec 0 y) as [[B ->]|[B ->]];
  repeat match goal with |- context[Qminb 127 ?z] => let C := fresh in let D := fresh in destruct (Qminb_spec 127 z) as [[C D]|[C D]]; rewrite D; clear D end; lra.
Qed.
Definition scaled (rnd : Q -> Q) (avg f : Q) (v : Z) : Z :=
  Qfloor (Qminb 127 (Qmaxb 0 (rnd (rnd (rnd (inject_Z v / avg) * f) * avg))))%Q.
Lemma scale_shape : forall rnd l f w, scale_relative rnd l f = Some w -> exists avg, w = map (scaled rnd avg f) l /\
  (l <> [] -> avg = rnd (inject_Z (fold_right Z.add 0%Z l) / inject_Z (Z.of_nat (List.length l)))%Q /\ ~ (avg == 0)%Q).
Proof.
  intros rnd l f w. unfold scale_relative. destruct l as [|v l].
  - intros E. exists 0%Q. split; [injection E as <-; reflexivity|contradiction].
  - set (avg := rnd _). destruct (Qeq_bool avg 0) eqn:Z0; [discriminate|]. intros E. exists avg. split; [injection E as <-; reflexivity|].
    intros _. split; auto. apply Qeq_bool_neq. auto.
Qed.
Lemma sum_nonneg : forall l, (forall v, In v l -> 0 <= v) -> 0 <= fold_right Z.add 0%Z l /\ (fold_right Z.add 0%Z l = 0 <-> forall v, In v l -> v = 0).
Proof.
  induction l as [|a l IH]; intros H; cbn [fold_right]; [split; [lia|]; split; [intros _ v []|auto]|].
  assert (A := H a (or_introl eq_refl)). destruct IH as [I1 I2]; [intros; apply H; simpl; auto|]. split; [lia|]. split.
  - intros E v [<-|Hv]; [lia|]. apply I2; auto. lia.
  - intros Z0. rewrite (Z0 a) by (simpl; auto). apply I2. intros; apply Z0; simpl; auto.
Qed.
Lemma mean_nonneg : forall l, (forall v, In v l -> 0 <= v) -> (0 <= inject_Z (fold_right Z.add 0%Z l) / inject_Z (Z.of_nat (List.length l)))%Q.
Proof.
  intros [|a l] H; [unfold Qdiv; cbn; lra|]. apply Qle_shift_div_l.
  - change 0%Q with (inject_Z 0). rewrite <- Zlt_Qlt. cbn [List.length]. lia.
  - rewrite Qmult_0_l. change 0%Q with (inject_Z 0). rewrite <- Zle_Qle. apply sum_nonneg. auto.
Qed.
Lemma scale_range : forall rnd l f w, scale_relative rnd l f = Some w -> List.length w = List.length l /\ Forall (fun y => 0 <= y <= 127) w.
Proof.
  intros rnd l f w E. apply scale_shape in E as [avg [-> _]]. split; [apply map_length|]. apply Forall_forall. intros y Hy.
  apply in_map_iff in Hy as [v [<- _]]. unfold scaled. set (x := rnd _). destruct (clip_spec x) as [A B]. split.
  - change 0 with (Qfloor 0). apply Qfloor_resp_le. exact A.
  - change 127 with (Qfloor 127). apply Qfloor_resp_le. exact B.
Qed.
Lemma scale_mono : forall rnd l f w, rounding rnd -> (0 <= f)%Q -> (forall v, In v l -> 0 <= v) -> scale_relative rnd l f = Some w ->
  forall i j v u v' u', nth_error l i = Some v -> nth_error l j = Some u -> nth_error w i = Some v' -> nth_error w j = Some u' -> v <= u -> v' <= u'.
Proof.
  intros rnd l f w [RM R0] F P E i j v u v' u' Hi Hj Hi' Hj' VU. apply scale_shape in E as [avg [-> AV]].
  assert (NE : l <> []) by (destruct l; [destruct i; discriminate|discriminate]). destruct (AV NE) as [EA NZ].
  assert (A0 : (0 < avg)%Q). { assert (X := RM _ _ (mean_nonneg l P)). rewrite <- EA in X. lra. }
  rewrite nth_error_map in Hi', Hj'. rewrite Hi in Hi'. rewrite Hj in Hj'. cbn [option_map] in *. injection Hi' as <-. injection Hj' as <-.
  unfold scaled. apply Qfloor_resp_le, clip_mono, RM, Qmult_le_compat_r; [|lra]. apply RM, Qmult_le_compat_r; [|auto]. apply RM.
  unfold Qdiv. apply Qmult_le_compat_r; [rewrite <- Zle_Qle; auto|]. apply Qinv_le_0_compat. lra.
Qed.
Lemma scale_exact : forall l f, (0 <= f)%Q -> (forall v, In v l -> 0 <= v) ->
  (l <> [] -> (forall v, In v l -> v = 0) -> scale_relative (fun x => x) l f = None) /\
  (l = [] -> scale_relative (fun x => x) l f = Some []) /\
  ((exists v, In v l /\ v <> 0) -> scale_relative (fun x => x) l f = Some (map (fun v => Qfloor (Qminb 127 (inject_Z v * f))) l)).
Proof.
  intros l f F P. destruct (sum_nonneg l P) as [S0 S1]. split; [|split; [intros ->; reflexivity|]].
  - intros N Z0. unfold scale_relative. destruct l as [|a l]; [contradiction|]. cbv zeta. rewrite (proj2 S1 Z0).
    assert (Qeq_bool (inject_Z 0 / inject_Z (Z.of_nat (List.length (a :: l)))) 0 = true) as ->; auto.
  - intros [v [V1 V2]]. unfold scale_relative. destruct l as [|a l]; [contradiction|]. cbv zeta.
    set (avg := (inject_Z (fold_right Z.add 0%Z (a :: l)) / inject_Z (Z.of_nat (List.length (a :: l))))%Q).
    assert (LP : (0 < inject_Z (Z.of_nat (List.length (a :: l))))%Q) by (change 0%Q with (inject_Z 0); rewrite <- Zlt_Qlt; cbn [List.length]; lia).
    assert (SP : (0 < inject_Z (fold_right Z.add 0%Z (a :: l)))%Q).
    { change 0%Q with (inject_Z 0). rewrite <- Zlt_Qlt. destruct (Z.eq_dec (fold_right Z.add 0%Z (a :: l)) 0) as [Z0|Z0]; [|lia].
      exfalso. apply V2. apply (proj1 S1 Z0). auto. }
    assert (AP : (0 < avg)%Q). { unfold avg, Qdiv. apply Qlt_shift_div_l; [auto|]. rewrite Qmult_0_l. auto. }
    assert (Qeq_bool avg 0 = false) as ->. { destruct (Qeq_bool avg 0) eqn:Z0; auto. apply Qeq_bool_iff in Z0. lra. }
    f_equal. apply map_ext_in. intros x Hx.
    assert (E : (inject_Z x / avg * f * avg == inject_Z x * f)%Q) by (field; lra).
    assert (X0 : (0 <= inject_Z x * f)%Q).
    { apply Qmult_le_0_compat; auto. change 0%Q with (inject_Z 0). rewrite <- Zle_Qle. apply P. auto. }
    apply Qfloor_comp. destruct (Qmaxb_spec 0 (inject_Z x / avg * f * avg)) as [[A ->]|[A ->]]; [|lra].
    set (y := (inject_Z x / avg * f * avg)%Q) in *. set (z := (inject_Z x * f)%Q) in *.
    destruct (Qminb_spec 127 y) as [[B1 ->]|[B1 ->]], (Qminb_spec 127 z) as [[C1 ->]|[C1 ->]]; lra.
Qed.
Lemma same_start_always : forall n tol, (0 < tol)%Q -> same_start_time n tol = true.
Proof.
  intros n tol H. unfold same_start_time. apply Qltb_lt. destruct (Qabsb_spec (n_start n - n_start n)) as [[A B]|[A B]]; rewrite B; lra.
Qed.
Lemma instr_ne_ok : forall a b, instr_neb a b = true <-> a <> b.
Proof.
  intros a b. unfold instr_neb. rewrite negb_true_iff. destruct (i_eq_hash (fun _ => 0) a b) as [E _]. destruct (i_eqb a b); split; intros X; try congruence.
  - exfalso. apply X. apply E. reflexivity.
  - intro Y. apply E in Y. discriminate.
Qed.
