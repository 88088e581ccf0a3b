(** Saving one track and reading the file. *)
From Coq Require Import Sorted Permutation Lia Lqa Qabs Qround.
From Verif Require Import PyBase L_Base M_SortedDict M_Note S_Note L_Note M_Events M_Seq S_Seq M_Seqs L_Seqs M_Ticks S_Ticks L_Ticks M_Load S_Load L_Load L_Load2 M_Write S_Write S_Cut L_Write L_Write2 L_Write3 M_Meta S_Meta L_Meta M_Song S_Song L_Song L_Song2 L_Song4 L_Song5 M_Reader M_Pipe S_Pipe L_Pipe2 M_SaveSeq S_SaveSeq.
Open Scope Z_scope.

Lemma q440 : forall k, (clock440 k == inject_Z k * (1 # 440))%Q.
Proof. intros k. unfold clock440. field. Qed.
Lemma near_half : forall t k, (0 <= t)%Q -> nearest clock440 t k -> (Qabs (t - clock440 k) <= 1 # 880)%Q.
Proof.
  intros t k T [K N]. set (j := Qfloor (t * 440)). assert (J0 : 0 <= j) by (change 0 with (Qfloor 0); apply Qfloor_resp_le; lra).
  pose proof (Qfloor_le (t * 440)) as F1. pose proof (Qlt_floor (t * 440)) as F2. fold j in F1, F2. rewrite inject_Z_plus in F2. change (inject_Z 1) with 1%Q in F2.
  pose proof (N j J0) as N1. pose proof (N (j + 1) ltac:(lia)) as N2. rewrite !q440 in *. rewrite inject_Z_plus in N2. change (inject_Z 1) with 1%Q in N2.
  destruct (Qlt_le_dec (t * 440 - inject_Z j) (1 # 2)) as [H|H].
  - eapply Qle_trans; [exact N1|]. apply Qabs_Qle_condition. split; lra.
  - eapply Qle_trans; [exact N2|]. apply Qabs_Qle_condition. split; lra.
Qed.
Definition p0 : pm := match pm_new 220 120 with Ok p => p | Err _ => mkPM 0 [] [] end.
Lemma p0_new : pm_new 220 120 = Ok p0.
Proof. vm_compute. reflexivity. Qed.
Lemma p0_near : forall t, exists k, time_to_tick p0 t = Ok k /\ nearest clock440 t k.
Proof.
  intros t. destruct (C37b 220 120 p0 [] ltac:(lia) ltac:(lra) p0_new) as [C _]. cbn [pm_run] in C. destruct (C t) as [k [A [B D]]]. exists k. split; auto. split; auto.
  intros j J. specialize (D j J). rewrite !Qabsb_Qabs in D.
  assert (G : forall i, (t - inject_Z i * 60 / (120 * inject_Z 220) == t - clock440 i)%Q) by (intros i; unfold clock440; change (inject_Z 220) with 220%Q; field).
  rewrite !G in D. exact D.
Qed.
Definition tk (t : Q) : Z := match time_to_tick p0 t with Ok k => k | Err _ => 0 end.
Lemma tk_ok : forall t, time_to_tick p0 t = Ok (tk t).
Proof. intros t. unfold tk. destruct (p0_near t) as [k [E _]]. rewrite E. reflexivity. Qed.
Lemma tk_near : forall t, nearest clock440 t (tk t).
Proof. intros t. destruct (p0_near t) as [k [E N]]. unfold tk. rewrite E. exact N. Qed.
Definition W (n : note) : pnote := mkP (n_velocity n) (n_pitch n) (tk (n_start n)) (tk (n_end n)).
Lemma W_ticks : forall l, Forall2 ticks_note l (map W l).
Proof. induction l; constructor; auto. split; [apply tk_near|]. split; [apply tk_near|]. auto. Qed.
Definition inst1 (i : instr) (ns : list note) : winst := mkW (i_name i) (i_num i) (i_drum i) (map W ns) [] [].
Definition inst0 : winst := mkW "" 0 false [] [] [].
Lemma ticks1 : forall i ns, to_ticks p0 (mkSI (i_name i) (i_num i) (i_drum i) (map (fun n => mkSN (n_velocity n) (n_pitch n) (n_start n) (n_end n)) ns) [] []) = Ok (inst1 i ns).
Proof.
  intros i ns. unfold to_ticks. cbn [si_name si_prog si_drum si_notes si_bends si_ccs mapM].
  assert (E : mapM (fun n => bind (time_to_tick p0 (sn_start n)) (fun s => bind (time_to_tick p0 (sn_end n)) (fun e => Ok (mkP (sn_vel n) (sn_pitch n) s e))))
     (map (fun n => mkSN (n_velocity n) (n_pitch n) (n_start n) (n_end n)) ns) = Ok (map W ns)).
  { induction ns as [|n ns IH]; [reflexivity|]. cbn [map mapM sn_start sn_end sn_vel sn_pitch]. rewrite !tk_ok. cbn [bind]. rewrite IH. reflexivity. }
  rewrite E. reflexivity.
Qed.
Definition t0 : ftrack := [(0, FMeta (MTempo 500000)); (0, FMeta (MTime 4 4)); (1, FMsg MEnd)].
Lemma timing0 : forall i ns, timing_track (callback_song p0 i ns) = Ok t0.
Proof. intros. unfold timing_track, callback_song. cbn [sg_pm sg_meta md_times md_keys md_lyrics]. vm_compute. reflexivity. Qed.
Definition chan (i : instr) : Z := if i_drum i then 9 else 1.
Definition saved_file (i : instr) (ns : list note) : list ftrack :=
  [f_delta 0 t0; f_delta 0 (view FMsg (write_track 0 inst0)); f_delta 0 (view FMsg (write_track (chan i) (inst1 i ns)))].
Lemma serialize1 : forall i ns, serialize 9 (callback_song p0 i ns) [] = if messages_fit (inst1 i ns) then Ok (saved_file i ns) else Err ValueError.
Proof.
  intros i ns. unfold serialize. rewrite timing0. cbn [bind]. change ((0 <=? 9) && (9 <? 16)) with true. cbv iota. unfold callback_song. cbn [sg_pm sg_insts mapM].
  change (to_ticks p0 {| si_name := ""; si_prog := 0; si_drum := false; si_notes := []; si_bends := []; si_ccs := [] |}) with (Ok inst0). cbn [bind]. rewrite ticks1. cbn [bind forallb].
  change (messages_fit inst0) with true. cbn [andb]. rewrite andb_true_r. destruct (messages_fit (inst1 i ns)); [|reflexivity]. cbn [app map write_insts]. unfold saved_file, chan.
  unfold channel_of. cbn [w_drum inst0 inst1]. change (nth (0 mod List.length (channels 9)) (channels 9) 0) with 0. change (nth (1 mod List.length (channels 9)) (channels 9) 0) with 1. reflexivity.
Qed.
Lemma apart_nodup : forall l, struck_apart l <-> NoDup (map (fun n => (pn_start n, pn_pitch n)) l).
Proof.
  intros l. split.
  - induction l as [|n l IH]; intros H; cbn [map]; constructor.
    + intros C. apply in_map_iff in C as [m [E M]]. injection E as E1 E2. apply in_split in M as [l1 [l2 ->]]. apply (H [] n l1 m l2); auto.
    + apply IH. intros l1 a l2 b l3 ->. apply (H (n :: l1) a l2 b l3). reflexivity.
  - intros H l1 a l2 b l3 -> E1 E2. rewrite map_app in H. cbn [map] in H. apply NoDup_app_r in H. inversion H as [|? ? N _]; subst. apply N.
    rewrite map_app, E1, E2. apply in_app_iff. right. left. reflexivity.
Qed.

Section SAVED.
Variables (i : instr) (l ns : list note).
Hypothesis PM : Permutation ns l.
Hypothesis CL : clear_notes l.
Hypothesis NE : l <> [].
Hypothesis IN : 0 <= i_num i <= 127.
Let w := inst1 i ns.

Lemma in_ns : forall n, In n ns -> in_ranges n /\ 0 < n_velocity n /\ (0 <= n_start n)%Q /\ (1 / 440 < n_end n - n_start n)%Q /\ (n_end n < 2000000)%Q.
Proof. intros n N. apply (proj1 CL). apply (Permutation_in _ PM). exact N. Qed.
Lemma tick_facts : forall n, In n ns -> 0 <= tk (n_start n) < tk (n_end n) /\ tk (n_end n) < 900000000.
Proof.
  intros n N. destruct (in_ns n N) as (_ & _ & S0 & D & E). change (1 / 440)%Q with (1 # 440)%Q in D. pose proof (tk_near (n_start n)) as NS. pose proof (tk_near (n_end n)) as NE'.
  pose proof (near_half _ _ S0 NS) as H1. assert (E0 : (0 <= n_end n)%Q) by lra. pose proof (near_half _ _ E0 NE') as H2.
  apply Qabs_Qle_condition in H1, H2. rewrite !q440 in *. destruct NS as [NS _].
  assert (A : (inject_Z (tk (n_start n)) < inject_Z (tk (n_end n)))%Q) by lra. rewrite <- Zlt_Qlt in A.
  assert (B : (inject_Z (tk (n_end n)) < inject_Z 900000000)%Q) by (change (inject_Z 900000000) with 900000000%Q; lra). rewrite <- Zlt_Qlt in B. lia.
Qed.
Lemma fit1 : messages_fit w = true.
Proof.
  unfold messages_fit, w, inst1. cbn [w_prog w_notes w_bends w_ccs forallb]. rewrite !andb_true_iff. split; [split; [split|]|]; auto.
  - unfold byte7. lia.
  - apply forallb_forall. intros x X. apply in_map_iff in X as [n [<- N]]. destruct (in_ns n N) as ((R1 & R2 & _) & _). cbn [W pn_pitch pn_vel]. unfold byte7. lia.
Qed.
Lemma midi1 : midi_inst w.
Proof.
  split; [|split; intros x []]. intros x X. apply in_map_iff in X as [n [<- N]]. destruct (in_ns n N) as ((R1 & R2 & _) & V & _). destruct (tick_facts n N) as [T _]. unfold midi_note, W. cbn. lia.
Qed.
Lemma apart1 : struck_apart (map W l).
Proof.
  intros l1 a l2 b l3 E Es Ep. apply map_eq_app in E as (k1 & k2 & E & _ & E'). apply map_eq_cons in E' as (x & k3 & -> & <- & E'). apply map_eq_app in E' as (k4 & k5 & -> & _ & E'). apply map_eq_cons in E' as (y & k6 & -> & <- & _).
  cbn [W pn_start pn_pitch] in *. pose proof (proj2 CL _ _ _ _ _ E Ep) as D. change (1 / 440)%Q with (1 # 440)%Q in D.
  assert (X : In x l) by (rewrite E; apply in_app_iff; right; left; auto). assert (Y : In y l) by (rewrite E; apply in_app_iff; right; right; apply in_app_iff; right; left; auto).
  destruct (proj1 CL x X) as (_ & _ & X0 & _). destruct (proj1 CL y Y) as (_ & _ & Y0 & _).
  pose proof (near_half _ _ X0 (tk_near _)) as H1. pose proof (near_half _ _ Y0 (tk_near _)) as H2. rewrite Es in H1. apply Qabs_Qle_condition in H1, H2.
  assert (Qabs (n_start x - n_start y) <= 1 # 440)%Q by (apply Qabs_Qle_condition; split; lra). lra.
Qed.
Lemma apart_w : struck_apart (w_notes w).
Proof. apply apart_nodup. apply (Permutation_NoDup (l := map (fun n => (pn_start n, pn_pitch n)) (map W l))); [apply Permutation_map, Permutation_map, Permutation_sym, PM|]. apply apart_nodup, apart1. Qed.
Lemma midi0 : midi_inst inst0.
Proof. split; [intros x []|split; intros x []]. Qed.
Lemma track0 : write_track 0 inst0 = [(0, MProg 0 0); (1, MEnd)].
Proof. vm_compute. reflexivity. Qed.
Lemma played_FMsg : forall T, played (f_delta 0 (view FMsg T)) = T.
Proof. intros T. unfold played. rewrite f_abs_delta. apply view_FMsg. Qed.
Lemma last1 : last_of w < 900000000.
Proof.
  unfold last_of, ticks_of, w, inst1. cbn [w_notes w_bends w_ccs map app]. rewrite app_nil_r.
  assert (G : forall k, (forall n, In n k -> In n ns) -> fold_right Z.max 0 (flat_map (fun n => [pn_start n; pn_end n]) (map W k)) < 900000000).
  { induction k as [|n k IH]; intros H; cbn [map flat_map app fold_right]; [lia|]. specialize (IH (fun x X => H x (or_intror X))). destruct (tick_facts n (H n (or_introl eq_refl))). cbn [W pn_start pn_end]. lia. }
  cbn [fold_right]. specialize (G ns (fun n H => H)). lia.
Qed.
Lemma track1_in : forall ch e, In e (write_track ch w) -> 0 <= fst e < MAX_TICK /\ value_ok (FMsg (snd e)).
Proof.
  intros ch e E. destruct (track_shape3 ch w midi1) as [S1 [S2 _]]. pose proof last1 as L1. rewrite S1 in E. unfold MAX_TICK. apply in_app_iff in E as [E|[<-|E]].
  - unfold name_ev in E. destruct (String.eqb _ _); [destruct E|destruct E as [<-|[]]]. cbn. split; [lia|exact I].
  - cbn. unfold bits7. lia.
  - destruct (Tail_In ch (last_of w) w midi1 e E) as [[n [N K]]|[[t [p ->]]|[[t [c [v ->]]]| ->]]].
    + destruct midi1 as [M1 _]. destruct (M1 n N) as (P1 & P2 & P3). assert (pn_start n <= last_of w /\ pn_end n <= last_of w) as [B1 B2].
      { split; apply max_ge, busy_in; right; left; exists n; auto. }
      destruct K as [->| ->]; cbn [fst snd value_ok]; unfold bits7; lia.
    + exfalso. unfold Tail in E. apply in_app_iff in E as [E|[E|[]]]; [|discriminate]. apply (Permutation_in _ (Permutation_sym (tail_perm ch w))) in E. unfold rest_events, w, inst1 in E. cbn [w_notes w_bends w_ccs map app] in E. rewrite app_nil_r in E.
      apply in_flat_map in E as [n [_ [E|[E|[]]]]]; discriminate.
    + exfalso. unfold Tail in E. apply in_app_iff in E as [E|[E|[]]]; [|discriminate]. apply (Permutation_in _ (Permutation_sym (tail_perm ch w))) in E. unfold rest_events, w, inst1 in E. cbn [w_notes w_bends w_ccs map app] in E. rewrite app_nil_r in E.
      apply in_flat_map in E as [n [_ [E|[E|[]]]]]; discriminate.
    + assert (0 <= last_of w) by (apply max_ge; left; auto). cbn [fst snd value_ok]. split; [lia|exact I].
Qed.
Lemma saved_midi : forall keynum, midi_file keynum (saved_file i ns).
Proof.
  intros keynum. fold w. destruct (write_pos (chan i) w midi1) as [A1 [A2 A3]]. unfold saved_file. fold w. rewrite track0.
  split; [discriminate|]. split; [|split; [|split; [|split]]].
  - intros [C|[C|[C|[]]]]; [discriminate|discriminate|]. apply f_delta_nil in C. destruct (write_track (chan i) w); [congruence|discriminate].
  - intros t e [<-|[<-|[<-|[]]]] E.
    + cbn in E. destruct E as [<-|[<-|[<-|[]]]]; cbn; split; auto; lia.
    + cbn in E. destruct E as [<-|[<-|[]]]; cbn; unfold bits7; split; auto; lia.
    + split.
      * apply (f_delta_pos (view FMsg (write_track (chan i) w)) 0); auto; [apply view_sorted; exact A1|]. intros y Y. apply view_in in Y as [z [Z0 ->]]. cbn. apply A2; auto.
      * apply f_delta_snd in E as [k E]. apply view_in in E as [x [X E]]. injection E as _ E. rewrite E. apply (track1_in (chan i)); auto.
  - intros t e [<-|[<-|[<-|[]]]]; rewrite f_abs_delta; intros E.
    + cbn in E. destruct E as [<-|[<-|[<-|[]]]]; cbn; unfold MAX_TICK; lia.
    + cbn in E. destruct E as [<-|[<-|[]]]; cbn; unfold MAX_TICK; lia.
    + apply view_in in E as [x [X ->]]. cbn. apply (track1_in (chan i)); auto.
  - intros t rest e E I. injection E as <- _. cbn in I. destruct I as [<-|[<-|[<-|[]]]]; cbn; auto; try lia. split; [lia|]. exists 2. split; [lia|reflexivity].
  - intros t [<-|[<-|[<-|[]]]].
    + intros l1 l2 l3 k c n v u E. exfalso. assert (X : In (k, MOn c n v) (played (f_delta 0 t0))) by (rewrite E; apply in_app_iff; right; left; auto). cbn in X. destruct X as [X|[X|[X|[]]]]; discriminate.
    + rewrite played_FMsg. intros l1 l2 l3 k c n v u E. exfalso. assert (X : In (k, MOn c n v) [(0, MProg 0 0); (1, MEnd)]) by (rewrite E; apply in_app_iff; right; left; auto). cbn in X. destruct X as [X|[X|[]]]; discriminate.
    + rewrite played_FMsg. apply write_no_double; [apply midi1|apply apart_w].
Qed.
Lemma saved_parts : exists cut, Permutation cut (map (cutn w) (w_notes w)) /\
  forall k x, part (saved_file i ns) k x <-> (snd k = 2 /\ x = (if pair_eqb (i_num i, chan i) (fst k) then cut else [])) \/ ((snd k = 0 \/ snd k = 1) /\ x = []).
Proof.
  destruct (write_notes (chan i) w midi1 apart_w) as [cut [T P]]. exists cut. split; auto. intros k x. unfold part, saved_file. fold w. split.
  - intros (j & t & K & N & ->). destruct j as [|[|[|j]]]; cbn [nth_error] in N.
    + injection N as <-. right. split; [lia|]. reflexivity.
    + injection N as <-. right. split; [lia|]. reflexivity.
    + injection N as <-. left. split; [lia|]. unfold denoted. rewrite played_FMsg, T, of_inst_map. destruct k as [[a b] c]. reflexivity.
    + destruct j; discriminate.
  - intros [[K ->]|[[K|K] ->]].
    + exists 2%nat. eexists. split; [exact K|]. split; [reflexivity|]. unfold denoted. rewrite played_FMsg, T, of_inst_map. destruct k as [[a b] c]. reflexivity.
    + exists 0%nat. eexists. split; [exact K|]. split; [reflexivity|]. reflexivity.
    + exists 1%nat. eexists. split; [exact K|]. split; [reflexivity|]. reflexivity.
Qed.
Lemma saved_clock : forall k, 0 <= k -> (clock_of 220 (saved_file i ns) k == clock440 k)%Q.
Proof.
  intros k K. unfold clock_of, saved_file, seconds. rewrite events_delta. change (tempi_in (view as_meta t0)) with [(0, 500000)].
  assert (E : (sum_to (tick_length 220 [(0, 500000)%Z]) k == sum_to (fun _ => 1 # 440)%Q k)%Q).
  { apply sum_to_ext. intros j J. unfold tick_length. cbn [at_tick fold_left fst snd]. destruct (Z.leb_spec 0 j); [|lia]. reflexivity. }
  rewrite E, sum_const by auto. rewrite q440. reflexivity.
Qed.
Lemma pair_refl : forall a b, pair_eqb (a, b) (a, b) = true.
Proof. intros. unfold pair_eqb. cbn. rewrite !Z.eqb_refl. reflexivity. Qed.
Lemma saved_read : forall keynum, exists so q2 cut m, read_file keynum 9 220 (saved_file i ns) = Ok so /\
  trk (so_ms so) 0 = Some q2 /\ (forall j, j <> 0 -> trk (so_ms so) j = None) /\
  i_num (q_instr q2) = i_num i /\ i_drum (q_instr q2) = i_drum i /\ q_res q2 = 220 /\
  Permutation cut (map (cutn w) (w_notes w)) /\ Permutation m cut /\ StronglySorted (fun a b => pn_end a <= pn_end b) m /\ Forall2 (note_at clock440) m (q_notes q2).
Proof.
  intros keynum. pose proof (saved_midi keynum) as MF. destruct saved_parts as [cut [PC PT]]. set (file := saved_file i ns) in *. set (k0 := (i_num i, chan i, 2) : ikey).
  assert (WN : ns <> []) by (intros ->; apply Permutation_nil in PM; auto).
  assert (CN : cut <> []). { intros ->. apply Permutation_nil in PC. apply map_eq_nil in PC. unfold w, inst1 in PC. cbn in PC. apply map_eq_nil in PC. auto. }
  assert (K0 : forall k, (exists a x, part file k (a :: x)) <-> k = k0).
  { intros k. split.
    - intros (a & x & P). apply PT in P as [[A B]|[_ B]]; [|discriminate]. destruct (pair_eqb_spec (i_num i, chan i) (fst k)) as [E|E]; [|discriminate]. destruct k as [kk c]. cbn in *. subst. reflexivity.
    - intros ->. destruct cut as [|a x] eqn:C; [congruence|]. exists a, x. apply PT. left. split; [reflexivity|]. cbn [fst k0]. rewrite pair_refl. reflexivity. }
  assert (AM : at_most 128 file).
  { intros ks ND H. assert (forall k, In k ks -> k = k0) as A by (intros k I; apply K0; auto). destruct ks as [|a [|b ks]]; cbn; try lia. exfalso.
    inversion ND as [|? ? N _]; subst. apply N. left. rewrite (A b), (A a); cbn; auto. }
  destruct (read_file_spec keynum 9 220 file ltac:(lia) MF AM) as (so & ks & RD & ND & IK & SK & OUT & TR).
  assert (EK : ks = [k0]).
  { assert (In k0 ks) as I0 by (apply IK, K0; auto). assert (forall k, In k ks -> k = k0) as A by (intros k J; apply K0, IK; auto).
    destruct ks as [|a [|b ks]]; [destruct I0|rewrite (A a); cbn; auto|]. exfalso. inversion ND as [|? ? N _]; subst. apply N. left. rewrite (A b), (A a); cbn; auto. }
  subst ks. destruct (TR 0%nat k0 eq_refl) as (q & l0 & m1 & m & Q1 & Q2 & Q3 & Q4 & Q5 & Q6 & Q7 & Q8 & Q9 & _).
  assert (EL : l0 = cut). { apply PT in Q5 as [[A B]|[[A|A] _]]; [|discriminate|discriminate]. rewrite B. cbn [fst k0]. rewrite pair_refl. reflexivity. }
  subst l0.
  assert (LST : forall n, In n m1 -> 0 <= pn_start n < pn_end n /\ pn_end n < 1000000000).
  { intros n N. apply (Permutation_in _ Q6) in N. apply (Permutation_in _ PC) in N. apply in_map_iff in N as [x [<- X]]. destruct (cutn_spec w x X) as (D1 & D2 & D3 & D4 & D5). pose proof last1.
    assert (0 <= pn_start x). { destruct midi1 as [M1 _]. apply M1 in X. destruct X as (_ & _ & X). lia. }
    rewrite D3. destruct D4 as [D4 _]. split; [lia|]. assert (ST : stops w x (last_of w + 1)) by (split; [destruct (last_end w) as [_ L]; apply L; right; left; exists x; auto|right; right; apply last_end]). apply D5 in ST. lia. }
  assert (EM : m = m1).
  { assert (G : forall a b, selects (lasting (clock_of 220 file)) a b -> (forall n, In n a -> 0 <= pn_start n < pn_end n /\ pn_end n < 1000000000) -> b = a).
    { intros a b H. induction H as [|x a b P H IH|x a b P H IH]; intros L; auto.
      - f_equal. apply IH. intros; apply L; right; auto.
      - exfalso. apply P. destruct (L x (or_introl eq_refl)) as [[L1 L2] L3]. unfold lasting, file. rewrite !saved_clock by lia. rewrite !q440.
        assert (A : (inject_Z (pn_end x) < inject_Z 1000000000)%Q) by (rewrite <- Zlt_Qlt; auto). change (inject_Z 1000000000) with 1000000000%Q in A.
        assert (B : (inject_Z (pn_start x) + 1 <= inject_Z (pn_end x))%Q) by (change 1%Q with (inject_Z 1); rewrite <- inject_Z_plus, <- Zle_Qle; lia). lra. }
    apply G; auto. }
  subst m1. exists so, q, cut, m. split; auto. split; auto. split; [intros j J; apply OUT; cbn; lia|]. split; auto. split; [|split; auto; split; auto; split; auto; split; auto].
  - rewrite Q3. cbn [fst snd k0]. unfold chan. destruct (i_drum i); reflexivity.
  - eapply Forall2_imp; [|exact Q9]. cbn. intros a b A _ (B1 & B2 & B3 & B4). destruct (LST a A) as [[L1 L2] L3]. split; auto. split; auto. split; [rewrite B3; apply saved_clock; lia|rewrite B4; apply saved_clock; lia].
Qed.
End SAVED.
