(** Loading, saving and loading again. *)
From Coq Require Import Sorted Permutation Lia Lqa Qabs Qround.
From Verif Require Import PyBase L_Base M_SortedDict M_Note L_Note L_Note2 M_Ticks S_Ticks L_Ticks M_Load S_Load L_Load L_Load2 L_Load5 M_Write S_Write M_Meta S_Meta L_Meta M_Song S_Song L_Song L_Song2 L_Song3 L_Song4 L_Song5 L_Song6.
Open Scope Z_scope.

(** ** Ticks of loaded instruments are ticks of events *)
Section TICKS.
Variable P : Z -> Prop.
Definition nP (n : pnote) : Prop := P (pn_start n) /\ P (pn_end n).
Definition cP (c : cell) : Prop := (forall b, In b (c_bends c) -> P (fst b)) /\ (forall x, In x (c_ccs c) -> P (fst (fst x))).
Definition sP (s : lstate) : Prop := (forall e n, In e (l_insts s) -> In n (pi_notes (snd e)) -> nP n) /\ forall c, In c (l_cells s) -> cP c.
Definition oP (o : opens) : Prop := forall k l x, In (k, l) o -> In x l -> P (fst x).
Lemma get_new_sP : forall dc s pr ch tr, sP s -> sP (get_new dc s pr ch tr).
Proof.
  intros dc s pr ch tr [A B]. unfold get_new. destruct (assoc ikey_eqb _ _); [split; auto|]. destruct (assoc pair_eqb _ _).
  - split; cbn [l_insts l_cells]; auto. intros e n' E N. apply in_app_iff in E as [E|[<-|[]]]; [eapply A; eauto|destruct N].
  - split; cbn [l_insts l_cells].
    + intros e n' E N. apply in_app_iff in E as [E|[<-|[]]]; [eapply A; eauto|destruct N].
    + intros c C. apply in_app_iff in C as [C|[<-|[]]]; auto. split; intros ? [].
Qed.
Lemma append_sP : forall s k n, sP s -> nP n -> sP (append_note s k n).
Proof.
  intros s k n [A B] N. split; auto. cbn [append_note l_insts]. intros e x E X. apply in_map_iff in E as [[k' i] [<- E]]. cbn [fst snd] in *.
  destruct (ikey_eqb k' k); cbn [snd pi_notes] in X; [|eapply A; eauto]. apply in_app_iff in X as [X|[<-|[]]]; auto. apply (A _ _ E X).
Qed.
Lemma emit_sP : forall dc s prog tr ch n, sP s -> nP n -> sP (emit dc s prog tr ch n).
Proof. intros. unfold emit. apply append_sP; auto. apply get_new_sP; auto. Qed.
Lemma finish_sP : forall dc prog tr t eos o s, P t -> oP o -> sP s -> sP (fst (finish_notes dc prog tr t eos s o)).
Proof.
  intros dc prog tr t eos o s PT. unfold finish_notes. cbn [fst]. revert s. induction o as [|[[c k] l] o IH]; intros s O1 H; cbn [fold_left]; auto.
  apply IH; [intros k' l' x K X; apply (O1 k' l' x); auto; right; auto|].
  unfold finish_one. destruct l as [|[st v] l]; auto. destruct ((st <? t) || eos); auto. apply emit_sP; auto. split; cbn; auto.
  apply (O1 (c, k) ((st, v) :: l) (st, v)); left; auto.
Qed.
Lemma oP_filter : forall g o, oP o -> oP (filter g o).
Proof. intros g o H k l x K X. apply filter_In in K as [K _]. eapply H; eauto. Qed.
Lemma assoc_pair : forall (o : opens) k l, assoc pair_eqb k o = Some l -> In (k, l) o.
Proof. intros o k l H. apply (assoc_In _ _ pair_eqb); auto. apply pair_eqb_spec. Qed.
Lemma oP_set : forall o k l, oP o -> (forall x, In x l -> P (fst x)) -> oP (op_set o k l).
Proof.
  intros o k l H L k' l' x K X. unfold op_set in K. destruct (existsb _ o).
  - apply in_map_iff in K as [[k2 l2] [E K]]. cbn in E. destruct (pair_eqb k2 k); injection E as <- <-; [auto|eapply H; eauto].
  - apply in_app_iff in K as [K|[K|[]]]; [eapply H; eauto|]. injection K as <- <-. auto.
Qed.
Lemma off_sP : forall dc prog tr t ch n o s, P t -> oP o -> sP s ->
  sP (fst (note_off dc prog tr t ch n s o)) /\ oP (snd (note_off dc prog tr t ch n s o)).
Proof.
  intros dc prog tr t ch n o s PT O1 H. unfold note_off. destruct (assoc pair_eqb (ch, n) o) as [v|] eqn:E; [|auto]. cbn [fst snd]. cbv zeta.
  apply assoc_pair in E. assert (V : forall x, In x v -> P (fst x)) by (intros x X; apply (O1 _ _ x E X)). split.
  - assert (V' : forall x, In x (filter (fun x => negb (fst x =? t)) v) -> P (fst x)) by (intros x X; apply filter_In in X as [X _]; auto).
    revert s H. induction (filter _ v) as [|x l IH]; intros s H; cbn [fold_left]; auto. apply IH; [intros; apply V'; right; auto|].
    apply emit_sP; auto. split; cbn; auto. apply V'. left; auto.
  - destruct (filter (fun x => fst x =? t) v) as [|y l] eqn:F; [apply oP_filter; auto|]. apply oP_set; auto. intros x X. apply V. rewrite <- F in X. apply filter_In in X. tauto.
Qed.
Lemma get_cell_sP : forall s pr ch tr, sP s -> sP (fst (get_cell s pr ch tr)).
Proof.
  intros s pr ch tr [A B]. unfold get_cell. destruct (assoc ikey_eqb _ _); [split; auto|]. destruct (assoc pair_eqb _ _); [split; auto|].
  split; cbn [fst l_insts l_cells]; auto. intros c C. apply in_app_iff in C as [C|[<-|[]]]; auto. split; intros ? [].
Qed.
Lemma upd_in : forall A (l : list A) n g x, In x (upd_nth l n g) -> In x l \/ exists y, In y l /\ x = g y.
Proof.
  intros A l n g x H. unfold upd_nth in H. destruct (nth_error l n) as [y|] eqn:E; auto. apply in_app_iff in H as [H|[<-|H]].
  - left. rewrite <- (firstn_skipn n l). apply in_app_iff; auto.
  - right. exists y. split; auto. eapply nth_error_In; eauto.
  - left. rewrite <- (firstn_skipn (S n) l). apply in_app_iff; auto.
Qed.
Lemma in_cell_sP : forall s c g, sP s -> (forall x, cP x -> cP (g x)) -> sP (in_cell s c g).
Proof. intros s c g [A B] G. split; auto. cbn [in_cell l_cells]. intros x X. apply upd_in in X as [X|[y [Y ->]]]; auto. Qed.
Lemma step_sP : forall dc tr s o prog e, P (fst e) -> oP o -> sP s -> sP (fst (fst (step dc tr (s, o, prog) e))) /\ oP (snd (fst (step dc tr (s, o, prog) e))).
Proof.
  intros dc tr s o prog [t m] PT O1 H. cbn [fst] in PT. destruct m; cbn [step].
  - split; auto.
  - split; auto.
  - destruct (0 <? velocity).
    + pose proof (finish_sP dc prog tr t false o s PT O1 H) as F. destruct (finish_notes dc prog tr t false s o) as [s' o'] eqn:E. cbn [fst snd] in *. split; auto.
      assert (O2 : oP o') by (unfold finish_notes in E; injection E as _ <-; apply oP_filter; auto).
      apply oP_set; auto. intros x X. apply in_app_iff in X as [X|[<-|[]]]; auto. destruct (assoc pair_eqb (ch, note) o') eqn:A; [|destruct X]. apply assoc_pair in A. eapply O2; eauto.
    + pose proof (off_sP dc prog tr t ch note o s PT O1 H) as F. destruct (note_off dc prog tr t ch note s o). exact F.
  - pose proof (off_sP dc prog tr t ch note o s PT O1 H) as F. destruct (note_off dc prog tr t ch note s o). exact F.
  - pose proof (get_cell_sP s (prog ch) ch tr H) as G. destruct (get_cell s (prog ch) ch tr) as [s' c]. cbn [fst snd] in *. split; auto. apply in_cell_sP; auto.
    intros x [X1 X2]. split; cbn; auto. intros b B. apply in_app_iff in B as [B|[<-|[]]]; auto.
  - pose proof (get_cell_sP s (prog ch) ch tr H) as G. destruct (get_cell s (prog ch) ch tr) as [s' c]. cbn [fst snd] in *. split; auto. apply in_cell_sP; auto.
    intros x [X1 X2]. split; cbn; auto. intros b B. apply in_app_iff in B as [B|[<-|[]]]; auto.
  - pose proof (finish_sP dc prog tr t true o s PT O1 H) as F. destruct (finish_notes dc prog tr t true s o) as [s' o'] eqn:E. cbn [fst snd] in *. split; auto.
    unfold finish_notes in E; injection E as _ <-; apply oP_filter; auto.
  - split; auto.
Qed.
Lemma run_sP : forall dc tr evs s o prog, (forall e, In e evs -> P (fst e)) -> oP o -> sP s -> sP (fst (fst (fold_left (step dc tr) evs (s, o, prog)))).
Proof.
  induction evs as [|e l IH]; intros s o prog HE O1 H; cbn [fold_left]; auto.
  destruct (step_sP dc tr s o prog e (HE e (or_introl eq_refl)) O1 H) as [A B]. destruct (step dc tr (s, o, prog) e) as [[s' o'] prog']. cbn [fst snd] in *.
  apply IH; auto. intros; apply HE; right; auto.
Qed.
Lemma tracks_sP : forall dc l s tr, (forall t e, In t l -> In e t -> P (fst e)) -> sP s -> sP (load_tracks dc s tr l).
Proof.
  induction l as [|t l IH]; intros s tr H K; cbn [load_tracks]; auto. apply IH; [intros t' e T; apply H; right; auto|].
  unfold load_track. apply run_sP; auto; [intros; apply (H t); auto; left; auto|intros k x y []].
Qed.
Lemma file_sP : forall dc tracks, (forall t e, In t tracks -> In e (to_abs 0 t) -> P (fst e)) -> sP (load_file dc tracks).
Proof.
  intros dc tracks H. unfold load_file. apply tracks_sP; [|split; [intros e n []|intros c []]].
  intros t e T E. apply in_map_iff in T as [t' [<- T]]. eapply H; eauto.
Qed.
End TICKS.

(** ** Notes of a loaded track can be told apart *)
Lemma notes_nodup : forall evs prog, no_double evs -> forall ch, NoDup (map (fun x => (pn_start (snd x), pn_pitch (snd x))) (filter (fun x => snd (fst x) =? ch) (track_notes prog evs))).
Proof.
  induction evs as [|[t m] l IH]; intros prog ND ch; cbn [track_notes]; [constructor|].
  pose proof (no_double_tail _ _ ND) as ND'. destruct m; try (apply IH; auto).
  rewrite filter_app, map_app. destruct (Z.ltb_spec 0 velocity) as [V|V]; [|cbn; apply IH; auto].
  destruct (ending (prog ch0) ch0 note t l) as [[e pr]|]; [|cbn; apply IH; auto]. cbn [filter fst snd]. destruct (Z.eqb_spec ch0 ch) as [->|]; [|cbn; apply IH; auto].
  cbn [map app fst snd pn_start pn_pitch]. constructor; [|apply IH; auto]. intros K. apply in_map_iff in K as [x [E X]]. injection E as E1 E2. apply filter_In in X as [X C]. apply Z.eqb_eq in C.
  destruct (track_notes_split l prog x X) as (l1 & l2 & pr' & SP & VP & _). rewrite C, E1, E2 in SP. apply (ND [] l1 l2 t ch note velocity (pn_vel (snd x))); auto. cbn. rewrite SP. reflexivity.
Qed.
Lemma of_inst_filter : forall pr ch l, exists g, of_inst pr ch l = map snd (filter g (filter (fun x => snd (fst x) =? ch) l)).
Proof.
  intros pr ch l. exists (fun x => pair_eqb (fst x) (pr, ch)). unfold of_inst. f_equal. induction l as [|x l IH]; cbn; auto.
  destruct (Z.eqb_spec (snd (fst x)) ch) as [E|E]; cbn [filter]; rewrite IH; [auto|]. destruct (pair_eqb_spec (fst x) (pr, ch)) as [X|]; auto. rewrite X in E. cbn in E. congruence.
Qed.
Lemma NoDup_map_filter : forall A B (h : A -> B) g l, NoDup (map h l) -> NoDup (map h (filter g l)).
Proof.
  induction l as [|x l IH]; intros H; cbn; auto. cbn in H. inversion H as [|? ? N1 N2]; subst. destruct (g x); auto. cbn. constructor; auto.
  intros K. apply N1. apply in_map_iff in K as [y [E Y]]. apply filter_In in Y as [Y _]. apply in_map_iff. eauto.
Qed.
Lemma of_inst_nodup : forall pr ch evs prog, no_double evs -> NoDup (map (fun n => (pn_start n, pn_pitch n)) (of_inst pr ch (track_notes prog evs))).
Proof.
  intros. destruct (of_inst_filter pr ch (track_notes prog evs)) as [g ->]. rewrite map_map. apply NoDup_map_filter. apply notes_nodup; auto.
Qed.
Lemma nodup_apart : forall l l1 (a : pnote) l2 b l3, NoDup (map (fun n => (pn_start n, pn_pitch n)) l) -> l = l1 ++ a :: l2 ++ b :: l3 -> pn_start a = pn_start b -> pn_pitch a <> pn_pitch b.
Proof.
  intros l l1 a l2 b l3 N -> E X. rewrite map_app in N. cbn [map] in N. rewrite map_app in N. cbn [map] in N.
  assert (G : forall (A : Type) (u v : list A), NoDup (u ++ v) -> NoDup v) by (intros A u v; induction u; cbn; auto; intros K; inversion K; auto).
  apply G in N. inversion N as [|? ? N1 _]; subst. apply N1. apply in_app_iff. right. left. congruence.
Qed.
(** No note starts when its track ends. *)
Lemma ending_after : forall evs pr ch n s t pr', ascending evs -> (forall e, In e evs -> s <= fst e) -> (forall te, In (te, MEnd) evs -> s < te) ->
  ending pr ch n s evs = Some (t, pr') -> s < t.
Proof.
  induction evs as [|[t0 m] l IH]; intros pr ch n s t pr' A H HE E; cbn [ending] in E; [discriminate|].
  apply StronglySorted_inv in A as [A _]. pose proof (H _ (or_introl eq_refl)) as H0. cbn in H0.
  assert (IHl : forall pr1, ending pr1 ch n s l = Some (t, pr') -> s < t).
  { intros pr1 E1. eapply IH; eauto; [intros; apply H; right; auto|intros; apply HE; right; auto]. }
  destruct m; try (eapply IHl; eauto; fail).
  - destruct (0 <? velocity).
    + destruct (Z.ltb_spec s t0); [injection E as <- _; lia|eauto].
    + destruct ((ch0 =? ch) && (note =? n) && negb (t0 =? s)) eqn:C; [|eauto]. injection E as <- _. rewrite !andb_true_iff, negb_true_iff in C. lia.
  - destruct ((ch0 =? ch) && (note =? n) && negb (t0 =? s)) eqn:C; [|eauto]. injection E as <- _. rewrite !andb_true_iff, negb_true_iff in C. lia.
  - injection E as <- _. apply HE. left; auto.
Qed.
Lemma notes_last : forall evs prog x, ascending evs -> (forall t c n v te, In (t, MOn c n v) evs -> 0 < v -> In (te, MEnd) evs -> t < te) ->
  In x (track_notes prog evs) -> pn_start (snd x) < pn_end (snd x) /\ 0 < pn_vel (snd x).
Proof.
  intros evs prog x A H X. destruct (track_notes_split evs prog x X) as (l1 & l2 & pr & SP & VP & pr' & E). split; auto.
  assert (A2 : ascending ((pn_start (snd x), MOn (snd (fst x)) (pn_pitch (snd x)) (pn_vel (snd x))) :: l2)) by (pose proof A as A1; rewrite SP in A1; exact (ascending_app_r l1 _ A1)).
  apply StronglySorted_inv in A2 as [A2 F2]. rewrite Forall_forall in F2. eapply ending_after; eauto.
  intros te TE. apply (H (pn_start (snd x)) (snd (fst x)) (pn_pitch (snd x)) (pn_vel (snd x)) te); auto; rewrite SP; apply in_app_iff; right; [left; auto|right; auto].
Qed.

(** ** Metadata of a loaded file *)
Lemma metadata_sig : forall keynum p l d d', load_metadata keynum p d l = Ok d' -> signatures_ok d -> signatures_ok d'.
Proof.
  induction l as [|[t m] l IH]; intros d d' H [S1 S2]; cbn [load_metadata] in H; [injection H as <-; split; auto|].
  destruct (meta_step keynum p d (t, m)) as [d1|] eqn:E; [|discriminate]. cbn [bind] in H. apply (IH d1); auto. unfold meta_step in E. cbn [fst snd] in E. destruct m.
  - injection E as <-. split; auto.
  - destruct (keynum name) as [k|]; [|discriminate]. cbn [bind] in E. destruct (py_nth _ _) as [q|]; [|discriminate]. cbn [bind] in E.
    destruct ((0 <=? k) && (k <? 24)) eqn:C; [|discriminate]. injection E as <-. split; cbn; auto. intros x X. apply in_app_iff in X as [X|[<-|[]]]; auto. cbn. lia.
  - destruct (py_nth _ _) as [q|]; [|discriminate]. cbn [bind] in E. destruct ((0 <? num) && (0 <? den)) eqn:C; [|discriminate]. injection E as <-. split; cbn; auto.
    intros x X. apply in_app_iff in X as [X|[<-|[]]]; auto. cbn. lia.
  - destruct (py_nth _ _) as [q|]; [|discriminate]. cbn [bind] in E. injection E as <-. split; auto.
  - injection E as <-. split; auto.
Qed.
Definition md_all (d : metadata) : list Q := map snd (md_keys d) ++ map snd (md_times d) ++ map snd (md_lyrics d).
Lemma metadata_times : forall (G : Q -> Prop) keynum p l d d', (forall e q, In e l -> py_nth (p_times p) (fst e) = Ok q -> G q) ->
  load_metadata keynum p d l = Ok d' -> (forall q, In q (md_all d) -> G q) -> forall q, In q (md_all d') -> G q.
Proof.
  intros G keynum p. induction l as [|[t m] l IH]; intros d d' HG H HD; cbn [load_metadata] in H; [injection H as <-; auto|].
  destruct (meta_step keynum p d (t, m)) as [d1|] eqn:E; [|discriminate]. cbn [bind] in H. apply (IH d1 d'); auto; [intros; eapply HG; eauto; right; auto|].
  pose proof (fun q => HG (t, m) q (or_introl eq_refl)) as H0. cbn [fst] in H0.
  unfold meta_step in E. cbn [fst snd] in E. unfold md_all in *. destruct m.
  - injection E as <-. auto.
  - destruct (keynum name) as [k|]; [|discriminate]. cbn [bind] in E. destruct (py_nth _ _) as [q|]; [|discriminate]. cbn [bind] in E.
    destruct ((0 <=? k) && (k <? 24)) eqn:C; [|discriminate]. injection E as <-. cbn [md_keys md_times md_lyrics]. rewrite map_app. intros q' X. rewrite !in_app_iff in X. cbn in X.
    destruct X as [[X|[<-|[]]]|X]; [apply HD; rewrite !in_app_iff; auto|auto|apply HD; rewrite !in_app_iff; tauto].
  - destruct (py_nth _ _) as [q|]; [|discriminate]. cbn [bind] in E. destruct ((0 <? num) && (0 <? den)) eqn:C; [|discriminate]. injection E as <-. cbn [md_keys md_times md_lyrics]. rewrite map_app. intros q' X. rewrite !in_app_iff in X. cbn in X.
    destruct X as [X|[[X|[<-|[]]]|X]]; [apply HD; rewrite !in_app_iff; auto|apply HD; rewrite !in_app_iff; auto|auto|apply HD; rewrite !in_app_iff; auto].
  - destruct (py_nth _ _) as [q|]; [|discriminate]. cbn [bind] in E. injection E as <-. cbn [md_keys md_times md_lyrics]. rewrite map_app. intros q' X. rewrite !in_app_iff in X. cbn in X.
    destruct X as [X|[X|[X|[<-|[]]]]]; [apply HD; rewrite !in_app_iff; auto|apply HD; rewrite !in_app_iff; auto|apply HD; rewrite !in_app_iff; auto|auto].
  - injection E as <-. auto.
Qed.
