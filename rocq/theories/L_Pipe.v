(** Lemmas for reading a MIDI file: values and loading. *)
From Coq Require Import Sorted Permutation Lia Lqa Qabs Qround.
From Verif Require Import PyBase L_Base M_SortedDict M_Note L_Note L_Note2 M_Ticks S_Ticks L_Ticks M_Load S_Load L_Load L_Load2 L_Load5 M_Meta S_Meta L_Meta M_Song S_Song L_Song L_Song2 L_Song3 L_Song4 L_Song5 L_Song7 L_Song8 M_Pipe S_Pipe.
Open Scope Z_scope.

(** ** Values of controllers *)
Section VALUES.
Variables (B : Z * Z -> Prop) (C : Z * Z * Z -> Prop).
Definition vC (c : cell) : Prop := (forall b, In b (c_bends c) -> B b) /\ (forall x, In x (c_ccs c) -> C x).
Definition vP (s : lstate) : Prop := forall c, In c (l_cells s) -> vC c.
Lemma vC_empty : vC (mkC [] []). Proof. split; intros ? []. Qed.
Lemma get_new_vP : forall dc s pr ch tr, vP s -> vP (get_new dc s pr ch tr).
Proof.
  intros dc s pr ch tr H. unfold get_new. destruct (assoc ikey_eqb _ _); auto. destruct (assoc pair_eqb _ _); auto.
  intros c K. cbn [l_cells] in K. apply in_app_iff in K as [K|[<-|[]]]; auto. apply vC_empty.
Qed.
Lemma emit_vP : forall dc s prog tr ch n, vP s -> vP (emit dc s prog tr ch n).
Proof. intros. unfold emit. intros c K. cbn [append_note l_cells] in K. revert c K. apply get_new_vP. auto. Qed.
Lemma finish_vP : forall dc prog tr t eos o s, vP s -> vP (fst (finish_notes dc prog tr t eos s o)).
Proof.
  intros dc prog tr t eos o s. unfold finish_notes. cbn [fst]. revert s. induction o as [|[[c k] l] o IH]; intros s H; cbn [fold_left]; auto.
  apply IH. unfold finish_one. destruct l as [|[st v] l]; auto. destruct ((st <? t) || eos); auto. apply emit_vP; auto.
Qed.
Lemma off_vP : forall dc prog tr t ch n o s, vP s -> vP (fst (note_off dc prog tr t ch n s o)).
Proof.
  intros dc prog tr t ch n o s H. unfold note_off. destruct (assoc pair_eqb (ch, n) o) as [v|]; auto. cbn [fst]. cbv zeta.
  revert s H. induction (filter _ v) as [|x l IH]; intros s H; cbn [fold_left]; auto. apply IH. apply emit_vP; auto.
Qed.
Lemma get_cell_vP : forall s pr ch tr, vP s -> vP (fst (get_cell s pr ch tr)).
Proof.
  intros s pr ch tr H. unfold get_cell. destruct (assoc ikey_eqb _ _); auto. destruct (assoc pair_eqb _ _); auto.
  intros c K. cbn [fst l_cells] in K. apply in_app_iff in K as [K|[<-|[]]]; auto. apply vC_empty.
Qed.
Lemma in_cell_vP : forall s c g, vP s -> (forall x, vC x -> vC (g x)) -> vP (in_cell s c g).
Proof. intros s c g A G x X. cbn [in_cell l_cells] in X. apply upd_in in X as [X|[y [Y ->]]]; auto. Qed.
Definition vE (e : event) : Prop := match snd e with MBend _ p => B (fst e, p) | MCC _ c v => C (fst e, c, v) | _ => True end.
Lemma step_vP : forall dc tr s o prog e, vE e -> vP s -> vP (fst (fst (step dc tr (s, o, prog) e))).
Proof.
  intros dc tr s o prog [t m] HE H. unfold vE in HE. cbn [fst snd] in HE. destruct m; cbn [step]; auto.
  - destruct (0 <? velocity).
    + pose proof (finish_vP dc prog tr t false o s H) as F. destruct (finish_notes dc prog tr t false s o) as [s' o']. exact F.
    + pose proof (off_vP dc prog tr t ch note o s H) as F. destruct (note_off dc prog tr t ch note s o). exact F.
  - pose proof (off_vP dc prog tr t ch note o s H) as F. destruct (note_off dc prog tr t ch note s o). exact F.
  - pose proof (get_cell_vP s (prog ch) ch tr H) as G. destruct (get_cell s (prog ch) ch tr) as [s' c]. cbn [fst snd] in *. apply in_cell_vP; auto.
    intros x [X1 X2]. split; cbn; auto. intros b K. apply in_app_iff in K as [K|[<-|[]]]; auto.
  - pose proof (get_cell_vP s (prog ch) ch tr H) as G. destruct (get_cell s (prog ch) ch tr) as [s' c]. cbn [fst snd] in *. apply in_cell_vP; auto.
    intros x [X1 X2]. split; cbn; auto. intros b K. apply in_app_iff in K as [K|[<-|[]]]; auto.
  - pose proof (finish_vP dc prog tr t true o s H) as F. destruct (finish_notes dc prog tr t true s o) as [s' o']. exact F.
Qed.
Lemma run_vP : forall dc tr evs s o prog, (forall e, In e evs -> vE e) -> vP s -> vP (fst (fst (fold_left (step dc tr) evs (s, o, prog)))).
Proof.
  induction evs as [|e l IH]; intros s o prog HE H; cbn [fold_left]; auto.
  pose proof (step_vP dc tr s o prog e (HE e (or_introl eq_refl)) H) as A. destruct (step dc tr (s, o, prog) e) as [[s' o'] prog']. cbn [fst snd] in *.
  apply IH; auto. intros; apply HE; right; auto.
Qed.
Lemma file_vP : forall dc tracks, (forall t e, In t tracks -> In e (to_abs 0 t) -> vE e) -> vP (load_file dc tracks).
Proof.
  intros dc tracks H. unfold load_file.
  assert (G : forall l s tr, (forall t e, In t l -> In e t -> vE e) -> vP s -> vP (load_tracks dc s tr l)).
  { induction l as [|t l IH]; intros s tr K V; cbn [load_tracks]; auto. apply IH; [intros t' e T; apply K; right; auto|]. unfold load_track. apply run_vP; auto. intros. apply (K t); auto. left; auto. }
  apply G; [|intros c []]. intros t e T E. apply in_map_iff in T as [t' [<- T]]. eapply H; eauto.
Qed.
End VALUES.

(** ** Programs *)
Lemma ending_prog : forall (R : Z -> Prop) evs pr ch n s e p, (forall t c q, In (t, MProg c q) evs -> R q) -> R pr -> ending pr ch n s evs = Some (e, p) -> R p.
Proof.
  intros R. induction evs as [|[t m] l IH]; intros pr ch n s e p H HP E; cbn [ending] in E; [discriminate|].
  assert (H' : forall t c q, In (t, MProg c q) l -> R q) by (intros; eapply H; right; eauto).
  destruct m; try (apply (IH _ _ _ _ _ _ H' HP E)).
  - eapply IH; [exact H'| |exact E]. destruct (ch =? ch0); auto. eapply H. left; eauto.
  - destruct (0 <? velocity).
    + destruct (s <? t); [injection E as _ <-; auto|eauto].
    + destruct (_ && _); [injection E as _ <-; auto|eauto].
  - destruct (_ && _); [injection E as _ <-; auto|eauto].
  - injection E as _ <-. auto.
Qed.
Lemma notes_prog : forall (R : Z -> Prop) evs prog x, (forall t c q, In (t, MProg c q) evs -> R q) -> (forall c, R (prog c)) -> In x (track_notes prog evs) -> R (fst (fst x)).
Proof.
  intros R. induction evs as [|[t m] l IH]; intros prog x H HP X; cbn [track_notes] in X; [destruct X|].
  assert (H' : forall t c q, In (t, MProg c q) l -> R q) by (intros; eapply H; right; eauto).
  destruct m; try (apply (IH _ _ H' HP X)).
  - eapply IH; [exact H'| |exact X]. intros c. cbn. destruct (c =? ch); auto. eapply H. left; eauto.
  - apply in_app_iff in X as [X|X]; [|eauto]. destruct (0 <? velocity); [|destruct X]. destruct (ending _ _ _ _ _) as [[e pr]|] eqn:E; [|destruct X]. destruct X as [<-|[]]. cbn.
    eapply ending_prog; [exact H'| |exact E]. auto.
Qed.

(** ** Loading *)
Section LOAD.
Variables (keynum : string -> res Z) (dc r : Z) (file : list ftrack).
Hypothesis Hr : 0 < r.
Hypothesis MF : midi_file keynum file.
Let tracks := map (view as_msg) file.
Let s := load_file dc tracks.
Let clock := clock_of r file.

Lemma played_abs : forall t, to_abs 0 (view as_msg t) = played t.
Proof. intros. unfold played. apply abs_view. Qed.
Lemma abs_meta : forall l k, absolute k (view as_meta l) = view as_meta (f_abs k l).
Proof. induction l as [|[d m] l IH]; intros k; cbn; auto. f_equal. apply IH. Qed.
Lemma meta_ok : file_ok (map (view as_meta) file).
Proof.
  destruct MF as (NE & NN & V & SH & SG & ND). split.
  - intros t e T E. apply in_map_iff in T as [t' [<- T]]. apply view_in in E as [x [X ->]]. cbn. apply (V t' x); auto.
  - intros t0 rest d us E K. destruct file as [|f0 fr]; [discriminate|]. cbn in E. injection E as <- _. apply view_in in K as [[dx mx] [X E]]. cbn in E. injection E as -> E.
    destruct mx as [m|m]; [|discriminate]. cbn in E. subst m. exact (SG f0 fr _ eq_refl X).
Qed.
(** The file is loaded, and its table of times holds all ticks. *)
Lemma load_total : exists p d is last evs, 0 <= last < MAX_TICK /\ tempo_events evs /\ pm_load r evs last = Ok p /\ (forall k, clock k = sum_to (tick_length r evs) k) /\
  (forall e, In e evs -> fst e <= last) /\
  load_song keynum dc r file = Ok (mkSong p d is) /\ Forall2 (fun e i => to_seconds p s (snd e) = Ok i) (l_insts s) is /\
  (forall k q, py_nth (p_times p) k = Ok q -> 0 <= k -> (q == clock k)%Q) /\
  Forall (fun k => 0 <= fst k < 24) (md_keys d) /\
  Forall (fun t => 0 < fst (fst t) <= 255 /\ exists k, 0 <= k <= 7 /\ snd (fst t) = 2 ^ k) (md_times d) /\
  (forall t e, In t tracks -> In e (to_abs 0 t) -> 0 <= fst e <= last) /\
  evs = match file with [] => [] | t0 :: _ => tempi_in (events_of (view as_meta t0)) end.
Proof.
  pose proof meta_ok as FO. destruct MF as (NE & NN & V & SH & SG & ND).
  destruct file as [|f0 fr] eqn:EF; [congruence|]. cbn [map] in FO.
  assert (NE' : ~ In [] (view as_meta f0 :: map (view as_meta) fr)).
  { intros K. apply NN. destruct K as [K|K]; [left; destruct f0; [auto|discriminate]|]. apply in_map_iff in K as [t [K1 K2]]. right. destruct t; [auto|discriminate]. }
  destruct (from_file_prefix keynum r (view as_meta f0) (map (view as_meta) fr) Hr FO) as [last [IL [L0 E]]]. { intros t T ->. auto. }
  assert (BND : forall t e, In t (f0 :: fr) -> In e (f_abs 0 t) -> 0 <= fst e <= last).
  { intros t e T X. split.
    - apply (f_abs_ge t 0); auto. intros y Y. apply (V t y); auto.
    - destruct IL as [_ IL]. apply (IL (view as_meta t) (fst e, as_meta (snd e))); [change (view as_meta f0 :: map (view as_meta) fr) with (map (view as_meta) (f0 :: fr)); apply in_map; auto|].
      rewrite <- absolute_events, abs_meta. unfold view. apply in_map_iff. exists e. auto. }
  assert (LM : last < MAX_TICK).
  { destruct IL as [[t [e (T & X & <-)]] _]. change (view as_meta f0 :: map (view as_meta) fr) with (map (view as_meta) (f0 :: fr)) in T. apply in_map_iff in T as [t' [<- T]].
    rewrite <- absolute_events, abs_meta in X. apply view_in in X as [x [X ->]]. cbn. apply (SH t' x); auto. }
  assert (SO : Forall (fun e => signature_ok keynum (snd e)) (view as_meta f0)).
  { apply Forall_forall. intros e X. apply view_in in X as [x [X ->]]. cbn. pose proof (SG f0 fr x eq_refl X) as K. destruct (snd x) as [[]|]; cbn in *; auto. destruct K as [K1 [k [K2 ->]]]. split; [lia|]. apply Z.pow_pos_nonneg; lia. }
  assert (NE2 : forall t, In t (view as_meta f0 :: map (view as_meta) fr) -> t <> []) by (intros t T ->; auto).
  destruct (loaded keynum r (view as_meta f0) (map (view as_meta) fr) last Hr FO NE2 IL LM SO) as (p & d & FF & _ & F1 & F2 & _).
  set (evs := tempi_in (events_of (view as_meta f0))) in *.
  assert (TE : tempo_events evs).
  { apply tempo_events_of; [intros e K; apply (proj1 FO (view as_meta f0)); auto; left; auto|]. intros dd us K. eapply (proj2 FO); eauto. }
  destruct (pm_load_table r evs last Hr TE (conj L0 LM)) as (p' & PL & _ & TB).
  assert (p' = p). { rewrite E, PL in FF. cbn [bind] in FF. destruct (load_metadata _ _ _ _); [|discriminate]. cbn [bind] in FF. injection FF as -> _. auto. } subst p'.
  assert (CK : forall k, clock k = sum_to (tick_length r evs) k) by (intros; subst clock; rewrite ?EF; reflexivity).
  assert (SP : sP (fun k => 0 <= k <= last) s).
  { apply file_sP. intros t e T X. unfold tracks in T. rewrite ?EF in T. apply in_map_iff in T as [t' [<- T]]. rewrite abs_view in X. apply view_in in X as [x [X ->]]. cbn. eapply BND; eauto. }
  assert (TS : forall k, 0 <= k <= last -> exists q, py_nth (p_times p) k = Ok q) by (intros k K; destruct (TB k K) as [q [Q1 _]]; eauto).
  assert (MS : exists is, mapM (fun e => to_seconds p s (snd e)) (l_insts s) = Ok is).
  { apply mapM_exists. intros e X. unfold to_seconds. cbv zeta.
    match goal with |- context [mapM ?g (pi_notes (snd e))] => destruct (mapM_exists _ _ g (pi_notes (snd e))) as [ns ->] end.
    { intros n N. destruct (proj1 SP e n X N) as [A1 A2]. destruct (TS _ A1) as [a ->]. destruct (TS _ A2) as [b ->]. cbn. eauto. }
    cbn [bind]. assert (CP : cP (fun k => 0 <= k <= last) match nth_error (l_cells s) (pi_cell (snd e)) with Some c => c | None => mkC [] [] end).
    { destruct (nth_error _ _) eqn:NT; [apply SP; eapply nth_error_In; eauto|]. split; intros ? []. }
    destruct CP as [CP1 CP2].
    match goal with |- context [mapM ?g (c_bends ?c)] => destruct (mapM_exists _ _ g (c_bends c)) as [bs ->] end.
    { intros n N. destruct (TS _ (CP1 n N)) as [a ->]. cbn. eauto. }
    cbn [bind]. match goal with |- context [mapM ?g (c_ccs ?c)] => destruct (mapM_exists _ _ g (c_ccs c)) as [cs ->] end.
    { intros n N. destruct (TS _ (CP2 n N)) as [a ->]. cbn. eauto. }
    cbn. eauto. }
  destruct MS as [is MS]. exists p, d, is, last, evs. split; [lia|]. split; auto. split; auto. split; auto. split.
  { intros e X. unfold evs, tempi_in in X. apply in_flat_map in X as [y [Y X]]. destruct (snd y) eqn:SY; try destruct X. subst e. cbn. apply (proj2 IL (view as_meta f0) y); [left; auto|auto]. destruct H. }
  split.
  { unfold load_song. rewrite ?EF. cbn [map]. rewrite FF. cbn [bind fst snd]. change (map (view as_msg) (f0 :: fr)) with (view as_msg f0 :: map (view as_msg) fr) in *.
    subst s tracks. rewrite ?EF in *. cbn [map] in *. rewrite MS. reflexivity. }
  split; [apply mapM_inv; auto|]. split.
  { intros k q N K. rewrite CK. apply (table_time r evs last p k q); auto. }
  split; [|split; [|split; [|rewrite ?EF; reflexivity]]].
  - apply Forall_forall. intros k K. destruct (F2_in_r _ _ _ _ _ _ F1 K) as [[tk nm] [X [X1 _]]]. unfold keys_in in X. apply in_flat_map in X as [y [Y X]]. destruct y as [ty my]. cbn in X. destruct my; try destruct X.
    + injection H as <- <-. rewrite <- absolute_events, abs_meta in Y. apply view_in in Y as [[tz mz] [Z1 Z2]]. cbn in Z2. injection Z2 as _ Z2. destruct mz as [m|m]; [|discriminate]. cbn in Z2. subst m.
      assert (Z3 : exists d0, In (d0, FMeta (MKey name)) f0). { clear - Z1. revert Z1. generalize 0. induction f0 as [|[a b] l IH]; intros k K; cbn in K; [tauto|]. destruct K as [K|K]; [injection K as _ ->; exists a; left; auto|]. destruct (IH _ K) as [d0 D]. exists d0. right; auto. }
      destruct Z3 as [d0 Z3]. pose proof (SG f0 fr _ eq_refl Z3) as [k' [K1 K2]]. cbn in X1. rewrite K1 in X1. injection X1 as <-. auto.
    + destruct H.
  - apply Forall_forall. intros k K. destruct (F2_in_r _ _ _ _ _ _ F2 K) as [[tk nm] [X [X1 _]]]. unfold times_in in X. apply in_flat_map in X as [y [Y X]]. destruct y as [ty my]. cbn in X. destruct my; try destruct X.
    + injection H as <- <-. rewrite <- absolute_events, abs_meta in Y. apply view_in in Y as [[tz mz] [Z1 Z2]]. cbn in Z2. injection Z2 as _ Z2. destruct mz as [m|m]; [|discriminate]. cbn in Z2. subst m.
      assert (Z3 : exists d0, In (d0, FMeta (MTime num den)) f0). { clear - Z1. revert Z1. generalize 0. induction f0 as [|[a b] l IH]; intros q K; cbn in K; [tauto|]. destruct K as [K|K]; [injection K as _ ->; exists a; left; auto|]. destruct (IH _ K) as [d0 D]. exists d0. right; auto. }
      destruct Z3 as [d0 Z3]. pose proof (SG f0 fr _ eq_refl Z3) as K1. cbn in X1. rewrite <- X1. exact K1.
    + destruct H.
  - intros t e T X. unfold tracks in T. rewrite ?EF in T. apply in_map_iff in T as [t' [<- T]]. rewrite abs_view in X. apply view_in in X as [x [X ->]]. cbn. eapply BND; eauto.
Qed.
End LOAD.
