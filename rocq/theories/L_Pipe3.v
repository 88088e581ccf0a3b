(** Lemmas for reading a MIDI file: which notes are kept; graphs of the tracks. *)
From Coq Require Import Sorted Permutation Lia Lqa Qabs Qround.
From Verif Require Import PyBase L_Base M_SortedDict M_Note L_Note L_Note2 M_Events M_Seq M_Seqs S_Seq M_Ticks S_Ticks L_Ticks M_Load S_Load L_Load2 M_Meta S_Meta L_Meta M_Song S_Song L_Song8 M_Pipe S_Pipe L_Pipe L_Pipe2.
From Verif Require Import M_Chord M_Graph S_Graph L_Graph2 L_Graph4 L_Graph5.
Import M_Reader.
Open Scope Z_scope.

Lemma sum_to_between : forall f lo hi j n, (forall i : Z, 0 <= i -> (lo <= f i)%Q /\ (f i <= hi)%Q) -> 0 <= j ->
  (inject_Z (Z.of_nat n) * lo <= sum_to f (j + Z.of_nat n) - sum_to f j <= inject_Z (Z.of_nat n) * hi)%Q.
Proof.
  intros f lo hi j n H J. induction n as [|n IH].
  - replace (j + Z.of_nat 0) with j by lia. change (inject_Z (Z.of_nat 0)) with 0%Q. lra.
  - replace (j + Z.of_nat (S n)) with ((j + Z.of_nat n) + 1) by lia. assert (E := sum_to_succ f (j + Z.of_nat n) ltac:(lia)). destruct (H (j + Z.of_nat n) ltac:(lia)) as [A B].
    rewrite Nat2Z.inj_succ. unfold Z.succ. rewrite inject_Z_plus. change (inject_Z 1) with 1%Q. lra.
Qed.
Lemma clock_between : forall r file lo hi, 0 < r -> file <> [] -> 0 < lo -> tempo_within lo hi file -> forall j k, 0 <= j <= k ->
  (inject_Z (k - j) * inject_Z lo <= (clock_of r file k - clock_of r file j) * (1000000 * inject_Z r) <= inject_Z (k - j) * inject_Z hi)%Q.
Proof.
  intros r file lo hi Hr NE L0 W j k H. destruct file as [|t0 rest]; [congruence|]. unfold clock_of, seconds. set (evs := tempi_in _).
  assert (RP : (0 < inject_Z r)%Q) by (change 0%Q with (inject_Z 0); rewrite <- Zlt_Qlt; auto).
  set (c := (1000000 * inject_Z r)%Q). assert (CP : (0 < c)%Q) by (subst c; lra).
  pose proof (sum_to_between (tick_length r evs) (inject_Z lo / c) (inject_Z hi / c) j (Z.to_nat (k - j))) as S0.
  rewrite Z2Nat.id in S0 by lia. replace (j + (k - j)) with k in S0 by lia.
  assert (S1 : forall i, 0 <= i -> (inject_Z lo / c <= tick_length r evs i)%Q /\ (tick_length r evs i <= inject_Z hi / c)%Q).
  { intros i I. destruct (W i I) as [W1 W2]. unfold tempo_of in W1, W2. fold evs in W1, W2. unfold tick_length. fold c. split; apply Qmult_le_compat_r; try (apply Qlt_le_weak, Qinv_lt_0_compat; auto); rewrite <- Zle_Qle; auto. }
  specialize (S0 S1 ltac:(lia)). destruct S0 as [A B].
  set (x := sum_to (tick_length r evs) k) in *. set (y := sum_to (tick_length r evs) j) in *. set (d := inject_Z (k - j)) in *.
  assert (X : (d * (inject_Z lo / c) * c == d * inject_Z lo)%Q) by (field; lra). assert (Y : (d * (inject_Z hi / c) * c == d * inject_Z hi)%Q) by (field; lra).
  split; [rewrite <- X|rewrite <- Y]; apply Qmult_le_compat_r; try lra.
Qed.
(** Notes that are not extremely short compared with their end last. *)
Lemma lasting_ticks : forall r file lo hi n, 0 < r -> file <> [] -> 0 < lo -> tempo_within lo hi file -> 0 <= pn_start n <= pn_end n ->
  (pn_end n * hi < 1000000000 * (pn_end n - pn_start n) * lo -> lasting (clock_of r file) n) /\ (pn_start n = pn_end n -> ~ lasting (clock_of r file) n).
Proof.
  intros r file lo hi n Hr NE L0 W H. assert (RP : (0 < inject_Z r)%Q) by (change 0%Q with (inject_Z 0); rewrite <- Zlt_Qlt; auto).
  destruct (clock_between r file lo hi Hr NE L0 W _ _ H) as [A _]. destruct (clock_between r file lo hi Hr NE L0 W 0 (pn_end n) ltac:(lia)) as [B0 B].
  assert (Z0 : clock_of r file 0 = 0%Q) by (destruct file; [congruence|reflexivity]). rewrite Z0 in B, B0. rewrite Z.sub_0_r in B, B0.
  set (e := clock_of r file (pn_end n)) in *. set (s := clock_of r file (pn_start n)) in *. set (c := (1000000 * inject_Z r)%Q) in *. assert (CP : (0 < c)%Q) by (subst c; lra).
  unfold lasting. fold e s. split.
  - intros K. assert (K' : (inject_Z (pn_end n) * inject_Z hi < 1000000000 * (inject_Z (pn_end n - pn_start n) * inject_Z lo))%Q).
    { rewrite Zlt_Qlt in K. rewrite !inject_Z_mult in K. change (inject_Z 1000000000) with 1000000000%Q in K. lra. }
    assert (F : (e * c < 1000000000 * (e - s) * c)%Q) by lra. apply Qmult_lt_r in F; auto.
  - intros E. unfold s, e. rewrite E. fold e. intros K. assert (0 <= e)%Q; [|lra]. apply Qnot_lt_le. intros N. assert (e * c < 0)%Q by (assert (X : (0 < (- e) * c)%Q) by (apply Qmult_lt_0_compat; lra); lra).
    assert (0 <= inject_Z (pn_end n) * inject_Z lo)%Q by (rewrite <- inject_Z_mult; change 0%Q with (inject_Z 0); rewrite <- Zle_Qle; nia). lra.
Qed.

(** ** From a file to a graph *)
Lemma selects_filter_In : forall A (P : A -> Prop) l k, selects P l k -> forall x, In x k <-> In x l /\ P x.
Proof.
  intros A P l k S1. induction S1 as [|y l k PY S1 IH|y l k PY S1 IH]; intros x; cbn; [tauto| |].
  - rewrite IH. split; [intros [->|[X Y]]; auto|intros [[->|X] Y]; auto].
  - rewrite IH. split; [intros [X Y]; auto|intros [[->|X] Y]; [contradiction|auto]].
Qed.
Lemma chords_pitches : forall e s c ws, chords_of e s c ws -> c_filter c = false ->
  forall p, In p (List.concat ws) <-> exists n, In n (q_notes s) /\ sounding n /\ n_pitch n = p.
Proof.
  intros e s c ws (key & gs & css & TK & (ks & KS & F & ALL & _) & SP & ->) CF p.
  assert (G : forall g, In g gs -> forall n, In n g -> In n (q_notes s) /\ sounding n).
  { intros g G n N. destruct (F2_in_r _ _ _ _ _ _ F G) as [k [_ [SL _]]]. destruct (proj1 (selects_filter_In _ _ _ _ SL _) N) as [N1 [N2 _]]. auto. }
  rewrite in_concat. split.
  - intros [ch [C1 C2]]. apply in_concat in C1 as [cs [C3 C4]]. destruct (F2_in_r _ _ _ _ _ _ SP C3) as [g [G1 (_ & G2 & _)]].
    destruct (proj1 (G2 p)) as [n [N1 N2]]; [apply in_concat; eauto|]. exists n. destruct (G g G1 n N1). auto.
  - intros [n (N1 & N2 & N3)]. pose proof (ALL n N1 N2 CF) as K. destruct (F2_in_l _ _ _ _ _ _ F K) as [g [G1 [SL _]]].
    assert (NG : In n g) by (apply (selects_filter_In _ _ _ _ SL); auto). destruct (F2_in_l _ _ _ _ _ _ SP G1) as [cs [C1 (_ & C2 & _)]].
    assert (X : In p (List.concat cs)) by (apply C2; eauto). apply in_concat in X as [ch [X1 X2]]. exists ch. split; auto. apply in_concat. eauto.
Qed.
Lemma chords_silent : forall e s c ws, chords_of e s c ws -> (forall n, In n (q_notes s) -> ~ sounding n) -> ws = [].
Proof.
  intros e s c ws (key & gs & css & TK & (ks & KS & F & ALL & _) & SP & ->) N.
  destruct gs as [|g gs]; [inversion SP; reflexivity|]. exfalso. inversion F as [|? ? ? ? HH]; subst. destruct HH as (SL & NE & _). destruct g as [|n g]; [congruence|].
  assert (I : In n (n :: g)) by (left; auto). destruct (proj1 (selects_filter_In _ _ _ _ SL _) I) as [I1 [I2 _]]. exact (N n I1 I2).
Qed.

(** No key 127 is struck. *)
Lemma pitch127 : forall file keynum k l0 a, midi_file keynum file -> (forall t e ch v, In t file -> In e t -> snd e = FMsg (MOn ch 127 v) -> v <= 0) ->
  part file k l0 -> In a l0 -> 0 <= pn_pitch a < 127.
Proof.
  intros file keynum k l0 a MF H (i & t & K & T & ->) A. destruct (note_facts keynum file MF t i _ _ a T A) as (_ & B & _ & V & _). unfold bits7 in B.
  assert (pn_pitch a <> 127); [|lia]. intros E. apply of_inst_In in A. destruct (track_notes_split _ _ _ A) as [l1 [l2 [p (X & _)]]]. cbn [fst snd] in X.
  assert (I : In (pn_start a, MOn (snd (fst k)) (pn_pitch a) (pn_vel a)) (played t)) by (rewrite X; apply in_app_iff; right; left; auto).
  unfold played in I. apply L_Song5.view_in in I as [[d m] [I1 I2]]. cbn in I2. injection I2 as _ I2. destruct m as [m|m]; cbn in I2; [discriminate|]. subst m.
  assert (D : exists d', In (d', FMsg (MOn (snd (fst k)) (pn_pitch a) (pn_vel a))) t).
  { clear - I1. revert I1. generalize 0. induction t as [|[d' m] t IH]; intros q X; cbn in X; [tauto|]. destruct X as [X|X]; [injection X as _ ->; exists d'; left; auto|]. destruct (IH _ X) as [d2 D]. exists d2. right. auto. }
  destruct D as [d' D]. rewrite E in D. pose proof (H t _ _ _ (nth_error_In _ _ T) D eq_refl). lia.
Qed.
Lemma good_tracks : forall e keynum dc r file so c, env_ok e -> 0 < r -> midi_file keynum file -> at_most 128 file ->
  (c_type c = OneHotAttr -> forall t ev ch v, In t file -> In ev t -> snd ev = FMsg (MOn ch 127 v) -> v <= 0) ->
  read_file keynum dc r file = Ok so -> forall j q, trk (so_ms so) j = Some q ->
  forall n, In n (q_notes q) -> sounding n -> (0 <= n_start n)%Q /\ good_pitch c (n_pitch n).
Proof.
  intros e keynum dc r file so c EO Hr MF AM P127 RF j q TQ.
  destruct (read_file_spec keynum dc r file Hr MF AM) as (so' & ks & RF' & ND & KP & SK & NT & TR). rewrite RF in RF'. apply Ok_inj in RF'. subst so'.
  assert (JB : 0 <= j < Z.of_nat (List.length ks)).
  { destruct (Z_lt_le_dec j 0) as [L|L]; [rewrite NT in TQ by lia; discriminate|]. destruct (Z_lt_le_dec j (Z.of_nat (List.length ks))); [lia|]. rewrite NT in TQ by lia. discriminate. }
  destruct (nth_error ks (Z.to_nat j)) as [k|] eqn:K; [|apply nth_error_None in K; lia].
  destruct (TR _ _ K) as (q' & l0 & l & m & TQ' & IN & ID & _ & P & PM & _ & SL & F & FD). rewrite Z2Nat.id in TQ' by lia. rewrite TQ in TQ'. injection TQ' as <-.
  rewrite Forall_forall in FD.
  assert (NF : forall n, In n (q_notes q) -> exists a, In a l0 /\ lasting (clock_of r file) a /\ note_at (clock_of r file) a n /\ 0 < pn_vel a /\ 0 <= pn_start a /\ 0 <= pn_pitch a).
  { intros n N. destruct (F2_in_r _ _ _ _ _ _ F N) as [a [A A2]]. destruct (proj1 (selects_filter_In _ _ _ _ SL _) A) as [A1 A3]. apply (Permutation_in _ PM) in A1. exists a. split; auto. split; auto. split; auto.
    destruct P as (i & t & Ki & T & ->). destruct (note_facts keynum file MF t i _ _ a T A1) as (_ & B & _ & V & S0). unfold bits7 in B. lia. }
  assert (EX : exists evs, tempo_events evs /\ forall k, clock_of r file k = sum_to (tick_length r evs) k).
  { destruct (load_total keynum dc r file Hr MF) as (p & d & is & last & evs & LB & TE & PL & CK & _). eauto. }
  intros n N _. destruct (NF n N) as (a & A & _ & (NP & _ & NS & _) & _ & S0 & P0). split; [rewrite NS; apply (clock_mono r file Hr EX (pn_start a) (pn_start a)); lia|].
    rewrite NP. unfold good_pitch. destruct (c_type c) eqn:CT; [|].
    all: try (intros _; exact P0). exact (pitch127 file keynum k l0 a MF (P127 eq_refl) P A).
Qed.
Lemma graph_of_file : forall e b keynum dc r file so c, env_ok e -> valid_config c -> 0 < r -> midi_file keynum file -> at_most 128 file ->
  (c_type c = OneHotAttr -> forall t ev ch v, In t file -> In ev t -> snd ev = FMsg (MOn ch 127 v) -> v <= 0) ->
  read_file keynum dc r file = Ok so -> forall j q, trk (so_ms so) j = Some q ->
  exists k l0 g b' ws, part file k l0 /\ i_num (q_instr q) = fst (fst k) /\ i_drum (q_instr q) = (snd (fst k) =? dc) /\
    build_sequence e b q c None = (Ok g, b') /\ chords_of e q c ws /\ graph_of (map (e_shash e) ws) g /\
    (snd (fst k) = dc -> ws = []) /\
    (snd (fst k) <> dc -> c_filter c = false -> forall p, In p (List.concat ws) <-> exists a, In a l0 /\ lasting (clock_of r file) a /\ pn_pitch a = p).
Proof.
  intros e b keynum dc r file so c EO VC Hr MF AM P127 RF j q TQ.
  destruct (read_file_spec keynum dc r file Hr MF AM) as (so' & ks & RF' & ND & KP & SK & NT & TR). rewrite RF in RF'. apply Ok_inj in RF'. subst so'.
  assert (JB : 0 <= j < Z.of_nat (List.length ks)).
  { destruct (Z_lt_le_dec j 0) as [L|L]; [rewrite NT in TQ by lia; discriminate|]. destruct (Z_lt_le_dec j (Z.of_nat (List.length ks))); [lia|]. rewrite NT in TQ by lia. discriminate. }
  destruct (nth_error ks (Z.to_nat j)) as [k|] eqn:K; [|apply nth_error_None in K; lia].
  destruct (TR _ _ K) as (q' & l0 & l & m & TQ' & IN & ID & _ & P & PM & _ & SL & F & FD). rewrite Z2Nat.id in TQ' by lia. rewrite TQ in TQ'. injection TQ' as <-.
  rewrite Forall_forall in FD.
  assert (NF : forall n, In n (q_notes q) -> exists a, In a l0 /\ lasting (clock_of r file) a /\ note_at (clock_of r file) a n /\ 0 < pn_vel a /\ 0 <= pn_start a /\ 0 <= pn_pitch a).
  { intros n N. destruct (F2_in_r _ _ _ _ _ _ F N) as [a [A A2]]. destruct (proj1 (selects_filter_In _ _ _ _ SL _) A) as [A1 A3]. apply (Permutation_in _ PM) in A1. exists a. split; auto. split; auto. split; auto.
    destruct P as (i & t & Ki & T & ->). destruct (note_facts keynum file MF t i _ _ a T A1) as (_ & B & _ & V & S0). unfold bits7 in B. lia. }
  assert (EX : exists evs, tempo_events evs /\ forall k, clock_of r file k = sum_to (tick_length r evs) k).
  { destruct (load_total keynum dc r file Hr MF) as (p & d & is & last & evs & LB & TE & PL & CK & _). eauto. }
  destruct (build_total e b q c None EO VC) as [g [b' BS]]; auto.
  { exact (good_tracks e keynum dc r file so c EO Hr MF AM P127 RF j q TQ). }
  destruct (build_fresh e b q c g b' EO BS) as [ws [CH [GO _]]].
  exists k, l0, g, b', ws. split; auto. split; auto. split; auto. split; auto. split; auto. split; auto. split.
  - intros D. apply (chords_silent e q c ws CH). intros n N [S1 _]. destruct (FD n N) as [_ E]. rewrite E in S1. apply Z.eqb_neq in S1. auto.
  - intros D CF p. rewrite (chords_pitches e q c ws CH CF). split.
    + intros (n & N & _ & E). destruct (NF n N) as (a & A & L & (NP & _) & _). exists a. split; auto. split; auto. congruence.
    + intros (a & A & L & E). assert (M : In a m) by (apply (selects_filter_In _ _ _ _ SL); split; auto; apply (Permutation_in _ (Permutation_sym PM)); auto).
      destruct (F2_in_l _ _ _ _ _ _ F M) as [n [N (NP & NV & _)]]. exists n. split; auto. split; [|congruence]. split; [rewrite (proj2 (FD n N)); apply Z.eqb_neq; auto|].
      destruct P as (i & t & Ki & T & ->). destruct (note_facts keynum file MF t i _ _ a T A) as (_ & _ & _ & V & _). lia.
Qed.
Lemma all_built : forall e conv b keynum dc r file so c per, env_ok e -> valid_config c -> (forall g, conv g = None) -> 0 < r -> midi_file keynum file -> at_most 128 file ->
  (c_type c = OneHotAttr -> forall t ev ch v, In t file -> In ev t -> snd ev = FMsg (MOn ch 127 v) -> v <= 0) ->
  read_file keynum dc r file = Ok so -> exists b', build e conv b (ms_values (so_ms so)) c per = (Ok tt, b').
Proof.
  intros e conv b keynum dc r file so c per EO VC CV Hr MF AM P127 RF. apply L_Graph5.build_all_total; auto. apply Forall_forall. intros q Q.
  unfold ms_values in Q. apply in_flat_map in Q as [k [_ Q]]. destruct (trk (so_ms so) k) as [q'|] eqn:T; [|destruct Q]. destruct Q as [->|[]].
  exact (good_tracks e keynum dc r file so c EO Hr MF AM P127 RF k q T).
Qed.
