(** Lemmas for reading a MIDI file: the tracks. *)
From Coq Require Import Sorted Permutation Lia Lqa Qabs Qround.
From Verif Require Import PyBase L_Base M_SortedDict M_Note L_Note L_Note2 M_Events M_Seq M_Seqs S_Seq M_Ticks S_Ticks L_Ticks M_Load S_Load L_Load L_Load2 L_Load5 M_Meta S_Meta L_Meta M_Song S_Song L_Song L_Song2 L_Song3 L_Song4 L_Song5 L_Song7 L_Song8.
From Verif Require M_Reader S_Reader L_Reader L_Reader3 S_Beats L_Beats5.
From Verif Require Import M_Pipe S_Pipe L_Pipe.
Import M_Reader.
Open Scope Z_scope.

Lemma selects_F2 : forall A B (R : A -> B -> Prop) (P : A -> Prop) (Q : B -> Prop) la lb, Forall2 R la lb -> (forall a b, In a la -> R a b -> (P a <-> Q b)) ->
  forall kb, selects Q lb kb -> exists ka, selects P la ka /\ Forall2 R ka kb.
Proof.
  intros A B R P Q la lb F. induction F as [|a b la lb H F IH]; intros H1 kb S1; inversion S1; subst.
  - exists []. split; constructor.
  - destruct (IH (fun a' b' I => H1 a' b' (or_intror I)) k) as [ka [K1 K2]]; auto. exists (a :: ka). split; [constructor; auto; apply (H1 a b); [left|..]; auto|constructor; auto].
  - destruct (IH (fun a' b' I => H1 a' b' (or_intror I)) kb) as [ka [K1 K2]]; auto. exists ka. split; auto. constructor; auto. intros X. apply H3. apply (H1 a b); [left|..]; auto.
Qed.
Lemma F2_sorted : forall A B (R : A -> B -> Prop) (P : A -> A -> Prop) (Q : B -> B -> Prop) la lb, Forall2 R la lb ->
  (forall a a' b b', In a la -> In a' la -> R a b -> R a' b' -> P a a' -> Q b b') -> StronglySorted P la -> StronglySorted Q lb.
Proof.
  intros A B R P Q la lb F. induction F as [|a b la lb H F IH]; intros H1 S1; constructor; apply StronglySorted_inv in S1 as [S1 S2].
  - apply IH; auto. intros a1 a2 b1 b2 I1 I2. apply H1; right; auto.
  - apply Forall_forall. intros b' B'. destruct (F2_in_r _ _ _ _ _ _ F B') as [a' [A1 A2]]. rewrite Forall_forall in S2. eapply (H1 a a'); eauto; [left|right]; auto.
Qed.
Lemma F2_nth : forall A B (R : A -> B -> Prop) la lb, Forall2 R la lb -> forall j b, nth_error lb j = Some b -> exists a, nth_error la j = Some a /\ R a b.
Proof. intros A B R la lb F. induction F; intros [|j] b0 E; try discriminate; cbn in *; [injection E as <-; eauto|eauto]. Qed.
Lemma F2_nth_l : forall A B (R : A -> B -> Prop) la lb, Forall2 R la lb -> forall j a, nth_error la j = Some a -> exists b, nth_error lb j = Some b /\ R a b.
Proof. intros A B R la lb F. induction F; intros [|j] b0 E; try discriminate; cbn in *; [injection E as <-; eauto|eauto]. Qed.
Lemma F2_len : forall A B (R : A -> B -> Prop) la lb, Forall2 R la lb -> List.length la = List.length lb.
Proof. intros A B R la lb F. induction F; cbn; auto. Qed.
Lemma audible_lasting : forall n, (0 <= rn_start n)%Q -> (rn_start n <= rn_end n)%Q -> (S_Reader.audible n <-> (rn_end n < 1000000000 * (rn_end n - rn_start n))%Q).
Proof.
  intros [v p a b] H1 H2. unfold S_Reader.audible. cbn [rn_start rn_end] in *.
  assert (E1 : (Qabsb (a - b) == b - a)%Q) by (destruct (Qabsb_spec (a - b)) as [[? ->]|[? ->]]; lra).
  assert (E2 : (Qmaxb (Qabsb a) (Qabsb b) == b)%Q).
  { destruct (Qmaxb_spec (Qabsb a) (Qabsb b)) as [[X ->]|[X ->]]; revert X; destruct (Qabsb_spec a) as [[? ->]|[? ->]]; destruct (Qabsb_spec b) as [[? ->]|[? ->]]; intros; lra. }
  rewrite E1, E2. split; intros H; [apply Qnot_le_lt; auto|apply Qlt_not_le; auto].
Qed.

(** ** The tracks of a file *)
Section READ.
Variables (keynum : string -> res Z) (dc r : Z) (file : list ftrack).
Hypothesis Hr : 0 < r.
Hypothesis MF : midi_file keynum file.
Let tracks := map (view as_msg) file.
Let s := load_file dc tracks.
Let clock := clock_of r file.

Lemma nth_tracks : forall i t, nth_error file i = Some t -> nth_error tracks i = Some (view as_msg t).
Proof. intros i t E. unfold tracks. apply map_nth_error. exact E. Qed.
Lemma track_pos : forall t, In t file -> forall d, In d (view as_msg t) -> 0 <= fst d.
Proof. intros t T d D. apply view_in in D as [x [X ->]]. cbn. destruct MF as (_ & _ & V & _). apply (V t x); auto. Qed.
Lemma part_loaded : forall i t pr ch, nth_error file i = Some t ->
  Permutation (notes_of s (pr, ch, Z.of_nat i)) (of_inst pr ch (denoted t)) /\ StronglySorted (fun a b => pn_end a <= pn_end b) (notes_of s (pr, ch, Z.of_nat i)).
Proof.
  intros i t pr ch E. pose proof (nth_error_In _ _ E) as T. unfold denoted. rewrite <- played_abs. apply C40_file; [apply nth_tracks; auto|apply track_pos; auto|].
  rewrite played_abs. apply MF. auto.
Qed.
Lemma keys_nodup : NoDup (map fst (l_insts s)).
Proof. unfold s, load_file. apply nodup_tracks. constructor. Qed.
Lemma keys_track : exists Ls, List.length Ls = List.length file /\ l_insts s = List.concat Ls /\ forall j L e, nth_error Ls j = Some L -> In e L -> snd (fst e) = Z.of_nat j.
Proof.
  destruct (tracks_append dc (map (to_abs 0) tracks) l_empty 0) as [Ls [A [B C]]]; [intros e []|]. exists Ls. unfold tracks in A. rewrite !map_length in A. split; auto.
Qed.
Lemma concat_sorted : forall (Ls : list (list (ikey * pinst))) k, (forall j L e, nth_error Ls j = Some L -> In e L -> snd (fst e) = k + Z.of_nat j) ->
  StronglySorted (fun a b : ikey => snd a <= snd b) (map fst (List.concat Ls)).
Proof.
  induction Ls as [|L Ls IH]; intros k H; cbn; [constructor|]. rewrite map_app.
  assert (HL : forall e, In e L -> snd (fst e) = k) by (intros e K; rewrite (H O L e eq_refl K); lia).
  assert (HR : forall x, In x (map fst (List.concat Ls)) -> k <= snd x).
  { intros x X. apply in_map_iff in X as [e [<- X]]. apply in_concat in X as [L' [X1 X2]]. apply In_nth_error in X1 as [j J]. rewrite (H (S j) L' e J X2). lia. }
  assert (HI := IH (k + 1)). clear IH. assert (HS : StronglySorted (fun a b : ikey => snd a <= snd b) (map fst (List.concat Ls))).
  { apply HI. intros j L' e J K. rewrite (H (S j) L' e J K). lia. }
  clear H HI. induction L as [|e L IH]; cbn; auto. constructor; [apply IH; intros; apply HL; right; auto|]. apply Forall_forall. intros x X. rewrite (HL e (or_introl eq_refl)).
  apply in_app_iff in X as [X|X]; auto. apply in_map_iff in X as [y [<- Y]]. rewrite (HL y (or_intror Y)). lia.
Qed.
Lemma key_place : forall e, In e (l_insts s) -> exists i t, snd (fst e) = Z.of_nat i /\ nth_error file i = Some t.
Proof.
  intros e E. destruct keys_track as [Ls [A [B C]]]. rewrite B in E. apply in_concat in E as [L [E1 E2]]. apply In_nth_error in E1 as [j J]. exists j.
  destruct (nth_error file j) as [t|] eqn:N; [exists t; split; auto; eapply C; eauto|]. apply nth_error_None in N. assert (j < List.length Ls)%nat by (apply nth_error_Some; congruence). lia.
Qed.
Lemma key_part : forall k i, In (k, i) (l_insts s) -> exists t n, snd k = Z.of_nat n /\ nth_error file n = Some t /\ part file k (of_inst (fst (fst k)) (snd (fst k)) (denoted t)) /\ Permutation (pi_notes i) (of_inst (fst (fst k)) (snd (fst k)) (denoted t)) /\ StronglySorted (fun a b => pn_end a <= pn_end b) (pi_notes i) /\ pi_notes i <> [] /\ pi_prog i = fst (fst k) /\ pi_drum i = (snd (fst k) =? dc).
Proof.
  intros [[pr ch] tr] i K. destruct (key_place _ K) as [n [t [N T]]]. cbn [fst snd] in *. exists t, n. split; auto. split; auto.
  pose proof (in_insts _ _ _ keys_nodup K) as IO. destruct (part_loaded n t pr ch T) as [P1 P2]. unfold notes_of in *. rewrite <- N, IO in P1, P2.
  split; [exists n, t; auto|]. split; auto. split; auto. exact (has_notes_file dc tracks _ _ IO).
Qed.
Lemma keys_parts : forall k, In k (map fst (l_insts s)) <-> exists a l, part file k (a :: l).
Proof.
  intros k. split.
  - intros K. apply in_map_iff in K as [[k' i] [<- K]]. cbn [fst]. destruct (key_part _ _ K) as (t & n & _ & _ & P & PM & _ & NE & _).
    destruct (of_inst _ _ (denoted t)) as [|a l]; [apply Permutation_sym, Permutation_nil in PM; congruence|]. eauto.
  - intros [a [l [i [t (N & T & E)]]]]. destruct k as [[pr ch] tr]. cbn [fst snd] in *. subst tr. destruct (part_loaded i t pr ch T) as [P _]. rewrite <- E in P.
    unfold notes_of in P. destruct (inst_of s _) as [q|] eqn:IO; [|apply Permutation_nil in P; discriminate]. unfold inst_of, assoc in IO.
    destruct (find _ _) as [e|] eqn:F; [|discriminate]. apply find_some in F as [F1 F2]. apply in_map_iff. exists e. split; auto.
    destruct (ikey_eqb_spec (fst e) (pr, ch, Z.of_nat i)); [auto|discriminate].
Qed.
Lemma note_facts : forall t n pr ch a, nth_error file n = Some t -> In a (of_inst pr ch (denoted t)) ->
  bits7 pr /\ bits7 (pn_pitch a) /\ bits7 (pn_vel a) /\ 0 < pn_vel a /\ 0 <= pn_start a <= pn_end a.
Proof.
  intros t n pr ch a T A. pose proof (nth_error_In _ _ T) as I. apply of_inst_In in A. destruct MF as (_ & _ & V & _ & _ & ND).
  assert (W : forall e, In e (played t) -> 0 <= fst e /\ match snd e with MProg _ p => bits7 p | MOn _ x v => bits7 x /\ bits7 v | _ => True end).
  { intros e E. unfold played in E. apply view_in in E as [x [X ->]]. assert (G : 0 <= fst x /\ value_ok (snd x)).
    { split; [apply (f_abs_ge t 0); auto; intros y Y; apply (V t y); auto|]. clear - V I X. assert (Y : exists d, In (d, snd x) t).
      { clear V I. revert X. generalize 0. induction t as [|[d m] t IH]; intros k X; cbn in X; [tauto|]. destruct X as [<-|X]; [exists d; left; auto|]. destruct (IH _ X) as [d' D]. exists d'. right. auto. }
      destruct Y as [d Y]. apply (V t _ I Y). }
    destruct G as [G1 G2]. split; auto. destruct (snd x) as [m|m]; cbn in *; auto. destruct m; auto. }
  assert (AS : ascending (played t)) by (rewrite <- played_abs; apply abs_ascending, track_pos; auto).
  split; [|].
  - apply (notes_prog bits7 (played t) (fun _ => 0) ((pr, ch), a)); auto; [|intros; unfold bits7; lia]. intros u c q E. apply (W _ E).
  - destruct (track_notes_split _ _ _ A) as [l1 [l2 [p (E & VP & _)]]]. cbn [fst snd] in *. destruct (W (pn_start a, MOn ch (pn_pitch a) (pn_vel a))) as [W1 [W2 W3]]; [rewrite E; apply in_app_iff; right; left; auto|].
    cbn in W1. split; auto. split; auto. split; auto. split; auto. apply (no_overlap _ _ _ _ AS A A).
Qed.
Lemma short_end : forall t n pr ch a, nth_error file n = Some t -> In a (of_inst pr ch (denoted t)) -> pn_end a < MAX_TICK.
Proof.
  intros t n pr ch a T A. pose proof (nth_error_In _ _ T) as I. apply of_inst_In in A.
  assert (AS : ascending (played t)) by (rewrite <- played_abs; apply abs_ascending, track_pos; auto).
  destruct (track_notes_split _ _ _ A) as [l1 [l2 [p (E & _ & p' & EN)]]]. cbn [fst snd] in *. rewrite E in AS. apply ascending_app_r in AS. apply StronglySorted_inv in AS as [AS F]. rewrite Forall_forall in F.
  destruct (ending_bound _ _ _ _ _ _ _ EN AS F) as [[e [E1 ->]] _].
  assert (X : In e (played t)) by (rewrite E; apply in_app_iff; right; right; auto). unfold played in X. apply view_in in X as [x [X ->]]. cbn. destruct MF as (_ & _ & _ & SH & _). apply (SH t x); auto.
Qed.
Definition rnote_at (a : pnote) (b : rnote) : Prop :=
  rn_pitch b = pn_pitch a /\ rn_vel b = pn_vel a /\ (rn_start b == clock (pn_start a))%Q /\ (rn_end b == clock (pn_end a))%Q.
Lemma clock_mono : (exists evs, tempo_events evs /\ forall k, clock k = sum_to (tick_length r evs) k) -> forall j k, 0 <= j <= k -> (0 <= clock j <= clock k)%Q.
Proof.
  intros [evs [TE CK]] j k H. rewrite !CK. assert (P : forall i, 0 <= i -> (0 < tick_length r evs i)%Q) by (intros; apply tick_length_pos; auto).
  split.
  - destruct (Z.eq_dec j 0) as [->|N]; [rewrite sum_to_0; lra|]. rewrite <- (sum_to_0 (tick_length r evs)). apply Qlt_le_weak. apply sum_to_mono; auto. lia.
  - destruct (Z.eq_dec j k) as [->|N]; [lra|]. apply Qlt_le_weak. apply sum_to_mono; auto. lia.
Qed.
Lemma F2_map_r : forall A B C (R : A -> C -> Prop) (f : B -> C) la lb, Forall2 (fun a b => R a (f b)) la lb -> Forall2 R la (map f lb).
Proof. intros A B C R f la lb F. induction F; cbn; constructor; auto. Qed.

Lemma to_seconds_spec : forall p k i x, (forall k q, py_nth (p_times p) k = Ok q -> 0 <= k -> (q == clock k)%Q) ->
  (exists evs, tempo_events evs /\ forall k, clock k = sum_to (tick_length r evs) k) ->
  In (k, i) (l_insts s) -> to_seconds p s i = Ok x ->
  S_Reader.inst_ok (reader_inst x) /\ ri_prog (reader_inst x) = fst (fst k) /\ ri_drum (reader_inst x) = (snd (fst k) =? dc) /\
  Forall2 rnote_at (pi_notes i) (ri_notes (reader_inst x)).
Proof.
  intros p k i x TT CK K E. destruct (key_part _ _ K) as (t & n & NK & T & P & PM & SO & NE & PR & DR).
  assert (NF : forall a, In a (pi_notes i) -> bits7 (fst (fst k)) /\ bits7 (pn_pitch a) /\ bits7 (pn_vel a) /\ 0 < pn_vel a /\ 0 <= pn_start a <= pn_end a).
  { intros a A. eapply note_facts; eauto. eapply Permutation_in; eauto. }
  unfold to_seconds in E. cbv zeta in E.
  match type of E with bind ?x _ = _ => destruct x as [ns|] eqn:E1; [|discriminate] end. cbn [bind] in E.
  match type of E with bind ?x _ = _ => destruct x as [bs|] eqn:E2; [|discriminate] end. cbn [bind] in E.
  match type of E with bind ?x _ = _ => destruct x as [cs|] eqn:E3; [|discriminate] end. cbn [bind] in E.
  apply Ok_inj in E. subst x. apply mapM_inv in E1, E2, E3.
  assert (F : Forall2 rnote_at (pi_notes i) (map (fun n0 => mkRN (sn_vel n0) (sn_pitch n0) (sn_start n0) (sn_end n0)) ns)).
  { apply F2_map_r. assert (Q : forall a, In a (pi_notes i) -> 0 <= pn_start a <= pn_end a) by (intros a A; apply (NF a A)). clear - E1 Q TT.
    induction E1 as [|a b la lb H F IH]; constructor; [|apply IH; intros; apply Q; right; auto]. specialize (Q a (or_introl eq_refl)).
    destruct (py_nth (p_times p) (pn_start a)) as [u|] eqn:U; [|discriminate]. destruct (py_nth (p_times p) (pn_end a)) as [v|] eqn:V; [|discriminate]. cbn in H. apply Ok_inj in H. subst b.
    unfold rnote_at. cbn. split; auto. split; auto. split; apply TT; auto; lia. }
  assert (CL : forall P : Z -> Prop, (forall t0 e, In t0 tracks -> In e (to_abs 0 t0) -> P (fst e)) -> forall c, nth_error (l_cells s) (pi_cell i) = Some c -> (forall b, In b (c_bends c) -> P (fst b)) /\ (forall b, In b (c_ccs c) -> P (fst (fst b)))).
  { intros P0 H c C. pose proof (file_sP P0 dc tracks H) as [_ SP]. apply SP. eapply nth_error_In; eauto. }
  assert (EV : forall t0 e, In t0 tracks -> In e (to_abs 0 t0) -> 0 <= fst e /\ match snd e with MBend _ q => - 2 ^ 13 < q < 2 ^ 13 | MCC _ c v => bits7 c /\ bits7 v | _ => True end).
  { intros t0 e T0 X. unfold tracks in T0. apply in_map_iff in T0 as [t' [<- T']]. rewrite abs_view in X. apply view_in in X as [y [Y ->]]. cbn [fst snd]. destruct MF as (_ & _ & V & _). split.
    - apply (f_abs_ge t' 0); auto. intros z Zz. apply (V t' z); auto.
    - assert (D : exists d, In (d, snd y) t').
      { clear - Y. revert Y. generalize 0. induction t' as [|[d m] t IH]; intros q X; cbn in X; [tauto|]. destruct X as [<-|X]; [exists d; left; auto|]. destruct (IH _ X) as [d' D]. exists d'. right. auto. }
      destruct D as [d D]. destruct (V t' _ T' D) as [_ W]. cbn [snd] in W. destruct (snd y) as [m|m]; cbn in *; auto. destruct m; auto. }
  assert (VC : forall c, nth_error (l_cells s) (pi_cell i) = Some c -> (forall b, In b (c_bends c) -> - 2 ^ 13 < snd b < 2 ^ 13 /\ 0 <= fst b) /\ (forall x, In x (c_ccs c) -> bits7 (snd (fst x)) /\ bits7 (snd x) /\ 0 <= fst (fst x))).
  { intros c C. pose proof (file_vP (fun b => - 2 ^ 13 < snd b < 2 ^ 13) (fun x => bits7 (snd (fst x)) /\ bits7 (snd x)) dc tracks) as VP.
    destruct (VP) with (c := c) as [V1 V2]; [|eapply nth_error_In; eauto|].
    { intros t0 e T0 X. destruct (EV t0 e T0 X) as [_ W]. unfold vE. destruct e as [u []]; cbn in *; auto. }
    destruct (CL (fun z => 0 <= z) (fun t0 e a b => proj1 (EV t0 e a b)) c C) as [U1 U2]. split; intros b B; [split; [apply V1; auto|apply U1; auto]|]. destruct (V2 b B) as [A1 A2]. split; [exact A1|]. split; [exact A2|apply U2; auto]. }
  split; [|split; [exact PR|split; [exact DR|exact F]]].
  unfold S_Reader.inst_ok, reader_inst. cbn [ri_prog ri_notes ri_bends ri_ccs si_prog si_notes si_bends si_ccs].
  split.
  { destruct (pi_notes i) as [|a l]; [congruence|]. destruct (NF a (or_introl eq_refl)) as [B _]. unfold bits7 in B. lia. }
  split.
  { apply Forall_forall. intros y Y. destruct (F2_in_r _ _ _ _ _ _ F Y) as [a [A (R1 & R2 & R3 & R4)]]. destruct (NF a A) as (_ & B1 & B2 & _ & B3). unfold bits7 in *.
    destruct (clock_mono CK _ _ B3) as [C1 C2]. unfold S_Reader.note_ok. rewrite R1, R2, R3, R4. split; [lia|]. split; [lia|]. split; lra. }
  set (c := match nth_error (l_cells s) (pi_cell i) with Some c => c | None => mkC [] [] end) in *.
  assert (VC' : (forall b, In b (c_bends c) -> - 2 ^ 13 < snd b < 2 ^ 13 /\ 0 <= fst b) /\ (forall x, In x (c_ccs c) -> bits7 (snd (fst x)) /\ bits7 (snd x) /\ 0 <= fst (fst x))).
  { destruct (nth_error (l_cells s) (pi_cell i)) as [c'|]; [apply VC; auto|]. split; intros ? []. }
  destruct VC' as [V1 V2]. split.
  - apply Forall_forall. intros y Y. apply in_map_iff in Y as [z [<- Zz]]. destruct (F2_in_r _ _ _ _ _ _ E2 Zz) as [a [A B]]. destruct (py_nth (p_times p) (fst a)) as [u|] eqn:U; [|discriminate]. cbn in B. apply Ok_inj in B. subst z. cbn [fst snd].
    destruct (V1 a A) as [W1 W2]. split; [lia|]. rewrite (TT _ _ U W2). apply (clock_mono CK (fst a) (fst a)). lia.
  - apply Forall_forall. intros y Y. apply in_map_iff in Y as [z [<- Zz]]. destruct (F2_in_r _ _ _ _ _ _ E3 Zz) as [a [A B]]. destruct (py_nth (p_times p) (fst (fst a))) as [u|] eqn:U; [|discriminate]. cbn in B. apply Ok_inj in B. subst z. cbn [fst snd].
    destruct (V2 a A) as [W0 [W1 W2]]. unfold bits7 in *. split; [lia|]. split; [lia|]. rewrite (TT _ _ U W2). apply (clock_mono CK (fst (fst a)) (fst (fst a))). lia.
Qed.

Lemma read_file_spec : at_most 128 file -> exists so ks, read_file keynum dc r file = Ok so /\
  NoDup ks /\ (forall k, In k ks <-> exists a l, part file k (a :: l)) /\ StronglySorted (fun a b : ikey => snd a <= snd b) ks /\
  (forall j, ~ 0 <= j < Z.of_nat (List.length ks) -> trk (so_ms so) j = None) /\
  forall j k, nth_error ks j = Some k -> exists q l0 l m, trk (so_ms so) (Z.of_nat j) = Some q /\
    i_num (q_instr q) = fst (fst k) /\ i_drum (q_instr q) = (snd (fst k) =? dc) /\ q_res q = r /\
    part file k l0 /\ Permutation l l0 /\ StronglySorted (fun a b => pn_end a <= pn_end b) l /\
    selects (lasting clock) l m /\ Forall2 (note_at clock) m (q_notes q) /\ Forall (fun n => n_program n = fst (fst k) /\ n_drum n = (snd (fst k) =? dc)) (q_notes q).
Proof.
  intros AM. destruct (load_total keynum dc r file Hr MF) as (p & d & is & last & evs & LB & TE & PL & CK & TL & LS & F & TT & KO & TO & _).
  fold tracks in F. fold s in F. fold clock in CK. fold clock in TT.
  assert (EX : exists evs, tempo_events evs /\ forall k, clock k = sum_to (tick_length r evs) k) by eauto.
  destruct (L_Beats5.tempo_map_loaded r evs last [] Hr TE TL LB) as (p' & m & PL' & GT & TM). assert (p' = p) by congruence. subst p'. cbn in GT.
  assert (PR : p_res p = r). { destruct (pm_load_ok r evs last Hr TE ltac:(lia) ltac:(lia)) as (p0 & m0 & E0 & _ & _ & _ & R0). congruence. }
  set (sg := M_Song.mkSong p d is) in *. set (f := reader_file sg m).
  assert (SP : Forall2 (fun e i => S_Reader.inst_ok (reader_inst i) /\ ri_prog (reader_inst i) = fst (fst (fst e)) /\ ri_drum (reader_inst i) = (snd (fst (fst e)) =? dc) /\ Forall2 rnote_at (pi_notes (snd e)) (ri_notes (reader_inst i))) (l_insts s) is).
  { revert F. apply Forall2_imp. intros [k i] x K _ E. cbn [fst snd] in *. eapply to_seconds_spec; eauto. }
  assert (FI : S_Reader.file_ok f).
  { unfold S_Reader.file_ok, f, reader_file, sg. cbn. split; [lia|]. split; auto. split; [apply Forall_forall; apply TM|]. split; auto. split.
    - apply Forall_forall. intros x X. apply in_map_iff in X as [i [<- X]]. destruct (F2_in_r _ _ _ _ _ _ SP X) as [e [_ [H _]]]. exact H.
    - rewrite map_length. rewrite <- (F2_len _ _ _ _ _ SP). rewrite <- (map_length fst). apply AM; [apply keys_nodup|]. intros k K. apply keys_parts. exact K. }
  destruct (L_Reader3.read_tracks f FI) as (so & RD & FE & NT & TR).
  exists so, (map fst (l_insts s)). split.
  { unfold read_file. rewrite LS. cbn [bind sg_pm]. fold sg. change (sg_pm sg) with p. rewrite GT. cbn [bind]. exact RD. }
  split; [apply keys_nodup|]. split; [apply keys_parts|]. split.
  { destruct keys_track as [Ls [_ [-> C]]]. apply (concat_sorted Ls 0). intros; rewrite (C j L e); auto. }
  split.
  { intros j J. apply NT. unfold f, reader_file. cbn [mf_insts]. rewrite map_length. unfold sg. cbn [sg_insts]. rewrite <- (F2_len _ _ _ _ _ SP). rewrite map_length in J. exact J. }
  intros j k J. rewrite nth_error_map in J. destruct (nth_error (l_insts s) j) as [[k' i]|] eqn:N; [|discriminate]. cbn in J. injection J as ->.
  destruct (F2_nth_l _ _ _ _ _ SP j _ N) as [x [X (IO & XP & XD & XN)]]. cbn [fst snd] in *.
  assert (X' : nth_error (mf_insts f) j = Some (reader_inst x)) by (unfold f, reader_file, sg; cbn [mf_insts sg_insts]; apply map_nth_error; exact X).
  destruct (TR j (reader_inst x) X') as (q & Q1 & Q2 & Q3 & Q4 & kk & SV & SN & SX).
  destruct (key_part k i (nth_error_In _ _ N)) as (t & n & NK & T & P & PM & SO & _).
  assert (NF : forall a, In a (pi_notes i) -> 0 <= pn_start a <= pn_end a).
  { intros a A. eapply (note_facts t n); eauto. eapply Permutation_in; eauto. }
  assert (SE : StronglySorted (fun a b => (rn_end a <= rn_end b)%Q) (ri_notes (reader_inst x))).
  { eapply F2_sorted; [exact XN| |exact SO]. intros a a' b b' A A' (_ & _ & _ & R) (_ & _ & _ & R') H. rewrite R, R'. apply (clock_mono EX). split; [|exact H]. pose proof (NF a A). lia. }
  pose proof (L_Reader3.survivors_ascending _ [] kk ltac:(intros m0 x0 []) SE SV) as SL.
  destruct (selects_F2 _ _ rnote_at (lasting clock) S_Reader.audible _ _ XN) with (kb := kk) as [ka [K1 K2]]; auto.
  { intros a b A (_ & _ & R1 & R2). pose proof (NF a A) as H. destruct (clock_mono EX _ _ H) as [C1 C2]. rewrite audible_lasting by (rewrite ?R1, ?R2; lra). unfold lasting. rewrite R1, R2. reflexivity. }
  exists q, (of_inst (fst (fst k)) (snd (fst k)) (denoted t)), (pi_notes i), ka. split; auto. split; [congruence|]. split; [congruence|].
  split; [rewrite Q4; unfold f, reader_file, sg; cbn; exact PR|]. split; auto. split; auto. split; auto. split; auto. split.
  2:{ revert SX. apply Forall_impl. intros n0 (_ & -> & ->). auto. }
  clear - K2 SN. revert ka K2. induction SN as [|b c kk l H F IH]; intros ka K2; inversion K2 as [|? ? ? ? HH]; subst; constructor; auto.
  destruct H as (A1 & A2 & A3 & A4). destruct HH as (B1 & B2 & B3 & B4). unfold note_at. rewrite A1, A2, A3, A4. auto.
Qed.
End READ.
