(** Lemmas about M_BeatsF: closeness, signatures. *)
From Coq Require Import Sorted Permutation Lia Lqa Qfield Qabs.
From Verif Require Import PyBase M_Float M_Beats M_BeatsF S_Beats S_Snap S_ShiftF S_BeatsF L_Base L_Float L_Float2 L_Snap L_NoteF L_NoteF2 P_Rounding L_ShiftF L_Beats L_Beats2 L_Beats3.
Open Scope Q_scope.

Lemma isclose_f_wide : forall a b, np_isclose_f a b = true -> Qabs (a - b) <= (2 # 100000000) + (2 # 100000) * Qabs b.
Proof.
  intros a b H. unfold np_isclose_f in H. apply Qle_bool_iff in H.
  assert (EB : forall x, Qabsb x == Qabs x).
  { intro x. destruct (Qabsb_cases x) as [[A ->]|[A ->]]; [rewrite Qabs_pos; [reflexivity|auto]|rewrite Qabs_neg; [reflexivity|lra]]. }
  rewrite EB in H.
  pose proof (fl_rounded (a - b)) as R. unfold rounded in R. pose proof (Qabs_nonneg b) as NB.
  assert (R1 : Qabs (a - b) * (1 - u) <= Qabs (fl (a - b))).
  { assert (Y : (Qabs (a - b) / inject_Z (2 ^ 53) == Qabs (a - b) * u)) by (unfold Qdiv; assert (Z1 : (/ inject_Z (2 ^ 53) == u)) by reflexivity; rewrite Z1; reflexivity).
    rewrite Y in R. pose proof (Qabs_triangle (fl (a - b)) (- (fl (a - b) - (a - b)))) as T. rewrite Qabs_opp in T.
    setoid_replace (fl (a - b) + - (fl (a - b) - (a - b))) with (a - b) in T by ring. lra. }
  assert (Z0 : 0 <= fl (1 # 100000) * Qabsb b) by (apply Qmult_le_0_compat; [apply fl_nonneg; discriminate|rewrite EB; auto]).
  destruct (fl_err (fl (1 # 100000) * Qabsb b) Z0) as [_ E1]. assert (Z1 : 0 <= fl (fl (1 # 100000) * Qabsb b)) by (apply fl_nonneg; auto).
  assert (Z2 : 0 <= fl (1 # 100000000)) by (apply fl_nonneg; discriminate).
  destruct (fl_err (fl (1 # 100000000) + fl (fl (1 # 100000) * Qabsb b)) ltac:(lra)) as [_ E2].
  assert (K1 : fl (1 # 100000000) <= 11 # 1000000000) by (vm_compute; discriminate).
  assert (K2 : fl (1 # 100000) <= 11 # 1000000) by (vm_compute; discriminate).
  assert (E3 : fl (1 # 100000) * Qabsb b <= (11 # 1000000) * Qabs b) by (rewrite EB; apply Qmult_le_compat_r; auto).
  generalize dependent (fl (fl (1 # 100000000) + fl (fl (1 # 100000) * Qabsb b))). generalize dependent (fl (fl (1 # 100000) * Qabsb b)).
  generalize dependent (fl (1 # 100000) * Qabsb b). generalize dependent (fl (1 # 100000000)). intros. rewrite U_eq in *.
  pose proof (Qabs_nonneg (a - b)). lra.
Qed.
Lemma isclose_f_self : forall a, np_isclose_f a a = true.
Proof.
  intros a. unfold np_isclose_f. apply Qle_bool_iff. rewrite (fl_0 (a - a)) by ring. change (Qabsb 0) with 0.
  apply fl_nonneg. assert (0 <= fl (1 # 100000000)) by (apply fl_nonneg; discriminate).
  assert (0 <= fl (fl (1 # 100000) * Qabsb a)); [|lra]. apply fl_nonneg. apply Qmult_le_0_compat; [apply fl_nonneg; discriminate|]. destruct (Qabsb_cases a) as [[A ->]|[A ->]]; lra.
Qed.
Lemma isclose_f_m : forall a b, a == b -> np_isclose_f a b = true.
Proof.
  intros a b E. unfold np_isclose_f. rewrite (fl_0 (a - b)) by (rewrite E; ring). apply Qle_bool_iff. change (Qabsb 0) with 0.
  apply fl_nonneg. assert (0 <= fl (1 # 100000000)) by (apply fl_nonneg; discriminate).
  assert (0 <= fl (fl (1 # 100000) * Qabsb b)); [|lra]. apply fl_nonneg. apply Qmult_le_0_compat; [apply fl_nonneg; discriminate|]. destruct (Qabsb_cases b) as [[A ->]|[A ->]]; lra.
Qed.
Lemma gtc_f_false : forall a b, gt_or_close_f a b = false -> a < b.
Proof.
  intros a b H. unfold gt_or_close_f in H. apply orb_false_iff in H as [H1 H2]. apply Qltb_ge in H1.
  destruct (Qlt_le_dec a b) as [L|L]; auto. assert (E : a == b) by lra. rewrite (isclose_f_m a b E) in H2. discriminate.
Qed.
Lemma gtc_f_true : forall a b, gt_or_close_f a b = true -> b < a \/ Qabs (a - b) <= (2 # 100000000) + (2 # 100000) * Qabs b.
Proof.
  intros a b H. unfold gt_or_close_f in H. apply orb_true_iff in H as [H|H]; [left; apply Qltb_lt; auto|right; apply isclose_f_wide; auto].
Qed.
Lemma wide_distinct : forall sigs, wide sigs -> distinct_times sigs.
Proof.
  intros sigs W. induction W as [|a l F W IH]; constructor; auto. rewrite Forall_forall in *. intros x X E. specialize (F x X). cbv beta in F.
  setoid_replace (ts_time a - ts_time x) with 0 in F by (rewrite E; ring). change (Qabs 0) with 0 in F. pose proof (Qabs_nonneg (ts_time a)). pose proof (Qabs_nonneg (ts_time x)). lra.
Qed.
Lemma wide_perm : forall l l', Permutation l l' -> wide l -> wide l'.
Proof.
  intros l l' P. apply FOP_perm; auto. intros a b H. rewrite (Qabs_Qminus (ts_time b)). lra.
Qed.
(** Two wide times and a number before the first: not close to the second. *)
Lemma wide_not_close : forall nb a b, a < b -> nb <= a -> (2 # 100000000) + (2 # 100000) * (Qabs a + Qabs b) < Qabs (a - b) -> gt_or_close_f nb b = false.
Proof.
  intros nb a b L1 L2 W. destruct (gt_or_close_f nb b) eqn:G; auto. exfalso. apply gtc_f_true in G as [G|G]; [lra|].
  rewrite (Qabs_neg (a - b)) in W by lra. rewrite (Qabs_neg (nb - b)) in G by lra. pose proof (Qabs_nonneg a). lra.
Qed.

(** ** the state and the list of all signatures *)
Definition ahead (st : bstate) : list tsig :=
  match b_sig st with Some s => if b_first st && Qltb (b_last st) (ts_time s) then [s] else [] | None => [] end ++ b_sigs st.
Definition ok_ahead (st : bstate) : Prop :=
  wide (sig_list (b_sig st) ++ b_sigs st) /\ StronglySorted (fun a b => ts_time a < ts_time b) (sig_list (b_sig st) ++ b_sigs st) /\ (forall s, In s (b_sigs st) -> b_last st < ts_time s).
Lemma ahead_after : forall st s, (forall s, In s (b_sigs st) -> b_last st < ts_time s) -> In s (ahead st) -> b_last st < ts_time s.
Proof.
  intros st s H I. unfold ahead in I. apply in_app_iff in I as [I|I]; auto. destruct (b_sig st) as [s0|]; [|destruct I]. destruct (b_first st && _)%bool eqn:B; [|destruct I].
  apply andb_true_iff in B as [_ B]. apply Qltb_lt in B. destruct I as [<-|[]]. auto.
Qed.
Lemma SSL_cons : forall (a : tsig) l, StronglySorted (fun a b => ts_time a < ts_time b) (a :: l) -> (forall x, In x l -> ts_time a < ts_time x) /\ StronglySorted (fun a b => ts_time a < ts_time b) l.
Proof. intros a l H. apply StronglySorted_inv in H as [H1 H2]. rewrite Forall_forall in H2. auto. Qed.

Lemma ahead_first : forall l q r s sg, l < ts_time s -> ahead (mkBS l q r true (Some s) sg) = s :: sg.
Proof. intros. unfold ahead. cbn [b_last b_qpm b_rest b_first b_sig b_sigs andb]. replace (Qltb l (ts_time s)) with true by (symmetry; apply Qltb_lt; auto). reflexivity. Qed.
Lemma ahead_past : forall l q r f s sg, ts_time s <= l -> ahead (mkBS l q r f (Some s) sg) = sg.
Proof. intros. unfold ahead. cbn [b_last b_qpm b_rest b_first b_sig b_sigs]. replace (Qltb l (ts_time s)) with false by (symmetry; apply Qltb_ge; auto). rewrite andb_false_r. reflexivity. Qed.
Lemma ahead_sigs : forall st s, In s (b_sigs st) -> In s (ahead st).
Proof. intros st s I. unfold ahead. apply in_or_app. auto. Qed.
(** One iteration: the next beat is the tempo's, or it is the time of the first signature ahead. *)
Inductive stepf (st st' : bstate) (nb : Q) : Prop :=
| PlainF : b_last st' = nb -> b_sig st' = b_sig st -> b_sigs st' = b_sigs st -> b_first st' = b_first st ->
    (forall s, In s (ahead st) -> gt_or_close_f nb (ts_time s) = false) -> stepf st st' nb
| SnapF s : (exists r, ahead st = s :: r /\ r = b_sigs st') -> gt_or_close_f nb (ts_time s) = true -> b_last st' = ts_time s -> b_sig st' = Some s ->
    (b_sig st = Some s /\ b_sigs st' = b_sigs st /\ b_first st = true /\ b_first st' = true \/ b_sigs st = s :: b_sigs st' /\ b_first st' = false) -> stepf st st' nb.
Lemma next_f_cases : forall st nb q rest, ok_ahead st ->
  tempo_beat_f (bpm_of_f (b_sig st)) (b_last st) (b_qpm st) (b_rest st) = (nb, (q, rest)) ->
  let st' := next_beat_f st in b_qpm st' = q /\ b_rest st' = rest /\ stepf st st' nb /\ ok_ahead st'.
Proof.
  intros [last q0 rest0 first sig sigs] nb q rest [W [SS LT]] TB. cbn zeta. unfold next_beat_f, first_snap_f. cbn [b_last b_qpm b_rest b_first b_sig b_sigs] in *. rewrite TB.
  assert (ST : forall s r, sigs = s :: r -> wide (s :: r) /\ StronglySorted (fun a b => ts_time a < ts_time b) (s :: r)).
  { intros s r ->. destruct sig as [s0|]; cbn [sig_list app] in *; auto. inversion W; subst. apply SSL_cons in SS as [_ SS]. auto. }
  destruct sig as [s0|].
  - cbn [sig_list app] in W, SS. inversion W as [|? ? W1 W2]; subst. rewrite Forall_forall in W1. pose proof (SSL_cons _ _ SS) as [S1 S2].
    destruct (first && Qltb last (ts_time s0))%bool eqn:F; cbn [andb].
    + apply andb_true_iff in F as [F1 F2]. subst first. apply Qltb_lt in F2.
      destruct (gt_or_close_f nb (ts_time s0)) eqn:G.
      * assert (NC : forall x, In x sigs -> gt_or_close_f (ts_time s0) (ts_time x) = false) by (intros x X; apply (wide_not_close _ (ts_time s0)); [apply S1; auto|lra|apply W1; auto]).
        assert (R : match sigs with | [] => mkBS (ts_time s0) q rest true (Some s0) [] | s :: r => if gt_or_close_f (ts_time s0) (ts_time s) then mkBS (ts_time s) q rest false (Some s) r else mkBS (ts_time s0) q rest true (Some s0) (s :: r) end = mkBS (ts_time s0) q rest true (Some s0) sigs).
        { destruct sigs as [|s1 r]; auto. rewrite (NC s1) by (left; auto). reflexivity. }
        rewrite R. cbn [b_last b_qpm b_rest b_first b_sig b_sigs]. split; auto. split; auto. split.
        -- eapply (SnapF _ _ _ s0); cbn [b_last b_qpm b_rest b_first b_sig b_sigs]; auto. exists sigs. rewrite ahead_first; auto.
        -- unfold ok_ahead. cbn [b_last b_qpm b_rest b_first b_sig b_sigs sig_list app]. auto.
      * pose proof (gtc_f_false _ _ G) as L0.
        assert (NC : forall x, In x sigs -> gt_or_close_f nb (ts_time x) = false) by (intros x X; apply (wide_not_close _ (ts_time s0)); [apply S1; auto|lra|apply W1; auto]).
        assert (R : match sigs with | [] => mkBS nb q rest true (Some s0) [] | s :: r => if gt_or_close_f nb (ts_time s) then mkBS (ts_time s) q rest false (Some s) r else mkBS nb q rest true (Some s0) (s :: r) end = mkBS nb q rest true (Some s0) sigs).
        { destruct sigs as [|s1 r]; auto. rewrite (NC s1) by (left; auto). reflexivity. }
        rewrite R. cbn [b_last b_qpm b_rest b_first b_sig b_sigs]. split; auto. split; auto. split.
        -- apply PlainF; cbn [b_last b_qpm b_rest b_first b_sig b_sigs]; auto. rewrite ahead_first by auto. intros s [<-|I]; auto.
        -- unfold ok_ahead. cbn [b_last b_qpm b_rest b_first b_sig b_sigs sig_list app]. split; auto. split; auto. intros s I. specialize (S1 s I). lra.
    + assert (AE : ahead (mkBS last q0 rest0 first (Some s0) sigs) = sigs).
      { unfold ahead. cbn [b_last b_qpm b_rest b_first b_sig b_sigs]. rewrite F. reflexivity. }
      destruct sigs as [|s1 r].
      * cbn [b_last b_qpm b_rest b_first b_sig b_sigs]. split; auto. split; auto. split; [apply PlainF; auto; rewrite AE; intros s []|]. unfold ok_ahead. cbn [b_last b_sig b_sigs sig_list app]. split; [auto|split; [auto|intros s []]].
      * destruct (ST s1 r eq_refl) as [W3 SS3]. pose proof (SSL_cons _ _ SS3) as [S3 _]. destruct (gt_or_close_f nb (ts_time s1)) eqn:G; cbn [b_last b_qpm b_rest b_first b_sig b_sigs]; split; auto; split; auto; split.
        -- eapply (SnapF _ _ _ s1); cbn [b_last b_qpm b_rest b_first b_sig b_sigs]; auto. exists r. rewrite AE. auto.
        -- unfold ok_ahead. cbn [b_last b_sig b_sigs sig_list app]. auto.
        -- pose proof (gtc_f_false _ _ G) as L0. apply PlainF; auto. rewrite AE. intros s [<-|I]; auto. inversion W3 as [|? ? W4 W5]; subst. rewrite Forall_forall in W4. apply (wide_not_close _ (ts_time s1)); [apply S3; auto|lra|apply W4; auto].
        -- pose proof (gtc_f_false _ _ G) as L0. unfold ok_ahead. cbn [b_last b_sig b_sigs sig_list app]. split; auto. split; auto. intros s [<-|I]; auto. specialize (S3 s I). lra.
  - assert (AE : ahead (mkBS last q0 rest0 first None sigs) = sigs) by reflexivity.
    destruct sigs as [|s1 r].
    + cbn [b_last b_qpm b_rest b_first b_sig b_sigs]. split; auto. split; auto. split; [apply PlainF; auto; rewrite AE; intros s []|]. unfold ok_ahead. cbn [b_last b_sig b_sigs sig_list app]. split; [constructor|split; [constructor|intros s []]].
    + destruct (ST s1 r eq_refl) as [W3 SS3]. pose proof (SSL_cons _ _ SS3) as [S3 _]. destruct (gt_or_close_f nb (ts_time s1)) eqn:G; cbn [b_last b_qpm b_rest b_first b_sig b_sigs]; split; auto; split; auto; split.
      * eapply (SnapF _ _ _ s1); cbn [b_last b_qpm b_rest b_first b_sig b_sigs]; auto. exists r. rewrite AE. auto.
      * unfold ok_ahead. cbn [b_last b_sig b_sigs sig_list app]. auto.
      * pose proof (gtc_f_false _ _ G) as L0. apply PlainF; auto. rewrite AE. intros s [<-|I]; auto. inversion W3 as [|? ? W4 W5]; subst. rewrite Forall_forall in W4. apply (wide_not_close _ (ts_time s1)); [apply S3; auto|lra|apply W4; auto].
      * pose proof (gtc_f_false _ _ G) as L0. unfold ok_ahead. cbn [b_last b_sig b_sigs sig_list app]. split; auto. split; auto. intros s [<-|I]; auto. specialize (S3 s I). lra.
Qed.

(** ** runs *)
Inductive runsf (stop : Q) : bstate -> list Q -> Prop :=
| RF0 st : stop <= b_last st -> runsf stop st []
| RFS st l : b_last st < stop -> runsf stop (next_beat_f st) l -> runsf stop st (b_last st :: l).
Lemma runsf_loop : forall stop st l, runsf stop st l -> forall fuel, (List.length l <= fuel)%nat -> beat_loop_f fuel stop st = Some l.
Proof.
  intros stop st l R. induction R as [st H|st l H R IH]; intros fuel L.
  - assert (E : Qltb (b_last st) stop = false) by (apply Qltb_ge; auto). destruct fuel; cbn [beat_loop_f]; rewrite E; reflexivity.
  - assert (E : Qltb (b_last st) stop = true) by (apply Qltb_lt; auto). destruct fuel; cbn [List.length] in L; [lia|]. cbn [beat_loop_f]. rewrite E. rewrite IH by lia. reflexivity.
Qed.
Lemma loop_runsf : forall stop fuel st l, beat_loop_f fuel stop st = Some l -> runsf stop st l.
Proof.
  intros stop. induction fuel as [|k IH]; intros st l H; cbn [beat_loop_f] in H; destruct (Qltb (b_last st) stop) eqn:E.
  - discriminate. - injection H as <-. apply RF0. apply Qltb_ge. auto.
  - destruct (beat_loop_f k stop (next_beat_f st)) as [l'|] eqn:B; [|discriminate]. injection H as <-. apply RFS; [apply Qltb_lt; auto|]. apply IH. auto.
  - injection H as <-. apply RF0. apply Qltb_ge. auto.
Qed.
Lemma runsf_hits : forall stop st l, runsf stop st l -> ok_ahead st -> forall s, In s (ahead st) -> ts_time s < stop -> In (ts_time s) l.
Proof.
  intros stop st l R. induction R as [st H|st l H R IH]; intros OK s I L.
  - exfalso. pose proof (ahead_after st s (proj2 (proj2 OK)) I). lra.
  - right. destruct (tempo_beat_f (bpm_of_f (b_sig st)) (b_last st) (b_qpm st) (b_rest st)) as [nb [q rest]] eqn:TB.
    destruct (next_f_cases st nb q rest OK TB) as [_ [_ [K OK']]]. specialize (IH OK').
    destruct K as [E1 E2 E3 E4 E5|s1 [r [E1 E2]] G E3 E4 E5].
    + apply IH; auto. pose proof (gtc_f_false _ _ (E5 s I)) as X. unfold ahead in *. rewrite E1, E2, E3, E4. apply in_app_iff in I as [I|I]; apply in_or_app; auto. left.
      destruct (b_sig st) as [s0|]; [|destruct I]. destruct (b_first st); cbn [andb] in *; [|destruct I]. destruct (Qltb (b_last st) (ts_time s0)); [|destruct I]. destruct I as [<-|[]].
      replace (Qltb nb (ts_time s0)) with true by (symmetry; apply Qltb_lt; auto). left. auto.
    + rewrite E1 in I. destruct I as [<-|I].
      * inversion R as [? H1|? ? H1 R1]; subst; [rewrite E3 in H1; lra|]. left. auto.
      * apply IH; auto. apply ahead_sigs. rewrite <- E2. auto.
Qed.
