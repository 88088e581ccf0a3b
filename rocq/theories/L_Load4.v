From Coq Require Import Lia Sorted Permutation Arith.
From Verif Require Import PyBase L_Base M_Load S_Load L_Load L_Load2 L_Load3.
Open Scope Z_scope.

Lemma finish_inv : forall (Q : lstate -> Prop) dc prog tr t eos o,
  (forall s c k l n, In ((c, k), l) o -> Q s -> Q (emit dc s prog tr c n)) -> forall s, Q s -> Q (fst (finish_notes dc prog tr t eos s o)).
Proof.
  intros Q dc prog tr t eos o. unfold finish_notes, fst. induction o as [|[[c n] l] o IH]; intros HE s H; simpl; auto. apply IH.
  - intros. eapply HE; eauto. right; eauto.
  - destruct l as [|[st v] l]; auto. destruct ((st <? t) || eos); auto. eapply HE; eauto. left; reflexivity.
Qed.
Lemma off_inv : forall (Q : lstate -> Prop) dc prog tr t ch n o,
  (forall s l x, In ((ch, n), l) o -> Q s -> Q (emit dc s prog tr ch x)) -> forall s, Q s -> Q (fst (note_off dc prog tr t ch n s o)).
Proof.
  intros Q dc prog tr t ch n o HE s H. unfold note_off. destruct (assoc pair_eqb (ch, n) o) as [v|] eqn:E; auto. simpl.
  apply assoc_In in E; [|apply pair_eqb_spec]. revert s H. induction (filter (fun x => negb (fst x =? t)) v) as [|x l IH]; intros s H; simpl; auto.
  apply IH. eapply HE; eauto.
Qed.
Definition add (ch : Z) (evs : list event) (x : cell) : cell := mkC (c_bends x ++ channel_bends ch evs) (c_ccs x ++ channel_ccs ch evs).
Lemma add_nil : forall ch x, add ch [] x = x.
Proof. intros ch [b c]. unfold add; simpl. rewrite !app_nil_r. reflexivity. Qed.
Lemma add_cons : forall ch e evs x, add ch (e :: evs) x = add ch evs (add ch [e] x).
Proof.
  intros ch [t m] evs [b c]. unfold add; simpl. destruct m; simpl; rewrite ?app_nil_r; auto; destruct (ch0 =? ch); simpl; rewrite ?app_nil_r, <- ?app_assoc; reflexivity.
Qed.
Lemma channel_bends_app : forall ch a b, channel_bends ch (a ++ b) = channel_bends ch a ++ channel_bends ch b.
Proof. intros ch a b. induction a as [|[t m] a IH]; simpl; auto. destruct m; auto. rewrite IH, app_assoc. reflexivity. Qed.
Lemma channel_ccs_app : forall ch a b, channel_ccs ch (a ++ b) = channel_ccs ch a ++ channel_ccs ch b.
Proof. intros ch a b. induction a as [|[t m] a IH]; simpl; auto. destruct m; auto. rewrite IH, app_assoc. reflexivity. Qed.
Lemma add_app : forall ch a b x, add ch (a ++ b) x = add ch b (add ch a x).
Proof. intros. unfold add. simpl. rewrite channel_bends_app, channel_ccs_app, !app_assoc. reflexivity. Qed.

(** names do not matter *)
Definition rename (s : lstate) (l : list (Z * string)) : lstate := mkL (l_insts s) (l_strag s) (l_cells s) l.
Lemma rename_good : forall s l, good s -> good (rename s l).
Proof. intros s l [own H]. exists own. exact H. Qed.

(** One step: [K] is any family of invariants indexed by the content of (ch, tr). *)
Lemma step_K : forall (K : cell -> lstate -> Prop) dc tr ch s o prog e x,
  (forall x s l, K x s -> K x (rename s l)) ->
  (forall x s c k l n, In ((c, k), l) o -> good s -> K x s -> K x (emit dc s prog tr c n)) ->
  (forall x s c f, good s -> c <> ch -> K x s -> K x (ctl s (prog c) c tr f)) ->
  (forall x s f, good s -> K x s -> K (f x) (ctl s (prog ch) ch tr f)) ->
  good s -> K x s ->
  good (fst (fst (step dc tr (s, o, prog) e))) /\ K (add ch [e] x) (fst (fst (step dc tr (s, o, prog) e))).
Proof.
  intros K dc tr ch s o prog [t m] x HR HE HO HC G H.
  assert (HE' : forall c k l, In ((c, k), l) o -> forall s n, good s /\ K x s -> good (emit dc s prog tr c n) /\ K x (emit dc s prog tr c n)).
  { intros c k l Hi s0 n [G0 H0]. split; [apply emit_good; auto|eapply HE; eauto]. }
  assert (F : forall eos, good (fst (finish_notes dc prog tr t eos s o)) /\ K x (fst (finish_notes dc prog tr t eos s o))).
  { intros eos. apply (finish_inv (fun s => good s /\ K x s)); auto. intros; eapply HE'; eauto. }
  assert (O : forall c n, good (fst (note_off dc prog tr t c n s o)) /\ K x (fst (note_off dc prog tr t c n s o))).
  { intros c n. apply (off_inv (fun s => good s /\ K x s)); auto. intros; eapply HE'; eauto. }
  assert (Z : forall m', channel_bends ch [(t, m')] = [] -> channel_ccs ch [(t, m')] = [] -> add ch [(t, m')] x = x).
  { intros m' E1 E2. unfold add. rewrite E1, E2, !app_nil_r. destruct x; reflexivity. }
  destruct m; try (rewrite Z by reflexivity; simpl; auto; fail).
  - rewrite Z by reflexivity. simpl. split; [apply rename_good; auto|apply HR; auto].
  - rewrite Z by reflexivity. simpl. destruct (0 <? velocity).
    + apply F.
    + specialize (O ch0 note). destruct (note_off dc prog tr t ch0 note s o). exact O.
  - rewrite Z by reflexivity. simpl. specialize (O ch0 note). destruct (note_off dc prog tr t ch0 note s o). exact O.
  - set (f := fun y => mkC (c_bends y ++ [(t, pitch)]) (c_ccs y)).
    assert (E : fst (fst (step dc tr (s, o, prog) (t, MBend ch0 pitch))) = ctl s (prog ch0) ch0 tr f).
    { unfold ctl, step. destruct (get_cell s (prog ch0) ch0 tr). reflexivity. }
    rewrite E. split; [apply ctl_good; auto|]. destruct (Z.eqb_spec ch0 ch) as [->|Ne].
    + match goal with |- K ?a _ => replace a with (f x); [auto|unfold add, f; simpl; rewrite Z.eqb_refl; simpl; rewrite app_nil_r; reflexivity] end.
    + rewrite Z; auto; simpl. destruct (Z.eqb_spec ch0 ch); [congruence|reflexivity].
  - set (f := fun y => mkC (c_bends y) (c_ccs y ++ [(t, control, value)])).
    assert (E : fst (fst (step dc tr (s, o, prog) (t, MCC ch0 control value))) = ctl s (prog ch0) ch0 tr f).
    { unfold ctl, step. destruct (get_cell s (prog ch0) ch0 tr). reflexivity. }
    rewrite E. split; [apply ctl_good; auto|]. destruct (Z.eqb_spec ch0 ch) as [->|Ne].
    + match goal with |- K ?a _ => replace a with (f x); [auto|unfold add, f; simpl; rewrite Z.eqb_refl; simpl; rewrite app_nil_r; reflexivity] end.
    + rewrite Z; auto; simpl. destruct (Z.eqb_spec ch0 ch); [congruence|reflexivity].
  - rewrite Z by reflexivity. apply F.
Qed.
Lemma run_PS : forall dc tr ch evs s o prog x, good s -> PS ch tr x s ->
  good (fst (fst (fold_left (step dc tr) evs (s, o, prog)))) /\ PS ch tr (add ch evs x) (fst (fst (fold_left (step dc tr) evs (s, o, prog)))).
Proof.
  intros dc tr ch evs. induction evs as [|e evs IH]; intros s o prog x G H; [rewrite add_nil; auto|].
  destruct (step_K (PS ch tr) dc tr ch s o prog e x) as [G1 H1]; auto.
  - intros. apply emit_PS; auto.
  - intros. apply ctl_other; auto. congruence.
  - intros. apply ctl_PS; auto.
  - cbn [fold_left]. destruct (step_next dc tr s o prog e) as [s' E]. assert (Es : s' = fst (fst (step dc tr (s, o, prog) e))) by (rewrite E; reflexivity). rewrite E. rewrite add_cons. apply IH; rewrite Es; auto.
Qed.
Lemma run_Phase : forall dc tr ch evs s o prog x, (forall e, In e evs -> ~ is_prog ch e) -> good s -> Phase ch tr (prog ch) x s ->
  good (fst (fst (fold_left (step dc tr) evs (s, o, prog)))) /\ Phase ch tr (prog ch) (add ch evs x) (fst (fst (fold_left (step dc tr) evs (s, o, prog)))).
Proof.
  intros dc tr ch evs. induction evs as [|e evs IH]; intros s o prog x NP G H; [rewrite add_nil; auto|].
  destruct (step_K (Phase ch tr (prog ch)) dc tr ch s o prog e x) as [G1 H1]; auto.
  - intros. apply emit_Phase; auto.
  - intros x0 s0 c f G0 Ne H0. assert ((c, tr) <> (ch, tr)) as Ne' by congruence. destruct (ctl_other s0 (prog c) c tr f ch tr G0 Ne') as [A [B C]].
    destruct H0 as [[H0 ->]|[H0|H0]]; [left; auto|right; left; auto|right; right; auto].
  - intros. apply ctl_Phase; auto.
  - cbn [fold_left]. destruct (step_next dc tr s o prog e) as [s' E]. assert (Es : s' = fst (fst (step dc tr (s, o, prog) e))) by (rewrite E; reflexivity). rewrite E. rewrite add_cons.
    assert (next_p prog e ch = prog ch) as EP.
    { destruct e as [t m]. unfold next_p; simpl. destruct m; auto. destruct (Z.eqb_spec ch ch0) as [->|]; auto. exfalso.
      apply (NP _ (or_introl eq_refl)). exists program. reflexivity. }
    rewrite <- EP. apply IH; [intros; apply NP; right; auto|rewrite Es; auto|]. rewrite EP, Es. auto.
Qed.
(** before the channel's first note *)
Definition free (ch : Z) (o : opens) : Prop := forall k l, ~ In ((ch, k), l) o.
Lemma free_next : forall ch prog o e, free ch o -> ~ starts_note ch e -> free ch (next_o prog o e).
Proof.
  intros ch prog o [t m] F NS. assert (FF : forall f, free ch (filter f o)) by (intros f k l H; apply filter_In in H as [H _]; eapply F; eauto).
  assert (SET : forall o' k v, fst k <> ch -> free ch o' -> free ch (op_set o' k v)).
  { intros o' k v Ne F' a l H. unfold op_set in H. destruct (existsb _ o').
    - apply in_map_iff in H as [[k1 l1] [E H]]. simpl in E. destruct (pair_eqb k1 k); injection E as -> _; eapply F'; eauto.
    - apply in_app_iff in H as [H|[H|[]]]; [eapply F'; eauto|]. injection H as -> _. apply Ne. reflexivity. }
  assert (OFF : forall c n, free ch (match assoc pair_eqb (c, n) o with | None => o
     | Some v => match filter (fun x => fst x =? t) v with [] => op_del o (c, n) | l => op_set o (c, n) l end end)).
  { intros c n. destruct (assoc pair_eqb (c, n) o) as [v|] eqn:E; auto. destruct (filter _ v); [apply FF|]. apply SET; auto. simpl. intros ->.
    apply assoc_In in E; [|apply pair_eqb_spec]. eapply F; eauto. }
  unfold next_o; cbn [fst snd]. destruct m; auto. destruct (Z.ltb_spec 0 velocity); auto. apply SET; auto. simpl. intros ->. apply NS. exists note, velocity. auto.
Qed.
Definition Pre (ch tr : Z) (x : cell) (s : lstate) : Prop := (P0 ch tr s /\ x = mkC [] []) \/ PS ch tr x s.
Lemma run_Pre : forall dc tr ch evs s o prog x, (forall e, In e evs -> ~ starts_note ch e) -> free ch o -> good s -> Pre ch tr x s ->
  good (fst (fst (fold_left (step dc tr) evs (s, o, prog)))) /\ Pre ch tr (add ch evs x) (fst (fst (fold_left (step dc tr) evs (s, o, prog)))) /\
  ((exists e, In e evs /\ is_ctrl ch e) -> PS ch tr (add ch evs x) (fst (fst (fold_left (step dc tr) evs (s, o, prog))))).
Proof.
  intros dc tr ch evs. induction evs as [|e evs IH]; intros s o prog x NS F G H; [rewrite add_nil; split; [auto|split; [auto|intros [e [[] _]]]]|].
  destruct (step_K (Pre ch tr) dc tr ch s o prog e x) as [G1 H1]; auto.
  - intros x0 s0 c k l n Hi G0 H0. assert ((c, tr) <> (ch, tr)) as Ne by (intros [= ->]; eapply F; eauto).
    destruct (emit_other dc s0 prog tr c n ch tr G0 Ne) as [A [B C]]. destruct H0 as [[H0 ->]|H0]; [left; auto|right; auto].
  - intros x0 s0 c f G0 Ne H0. assert ((c, tr) <> (ch, tr)) as Ne' by congruence. destruct (ctl_other s0 (prog c) c tr f ch tr G0 Ne') as [A [B C]].
    destruct H0 as [[H0 ->]|H0]; [left; auto|right; auto].
  - intros x0 s0 f _ [[H0 ->]|H0]; right; [apply ctl_P0|apply ctl_PS]; auto.
  - assert (HC : is_ctrl ch e -> PS ch tr (add ch [e] x) (fst (fst (step dc tr (s, o, prog) e)))).
    { destruct H1 as [[H1 E1]|H1]; auto. intros C. exfalso. assert (c_bends (add ch [e] x) ++ map fst (c_ccs (add ch [e] x)) <> []) as NE.
      { destruct e as [t m]. destruct C as [[p C]|[n [v C]]]; simpl in C; subst m; unfold add; simpl; rewrite Z.eqb_refl; simpl.
        - destruct (c_bends x); discriminate.
        - destruct (c_bends x); [|discriminate]. rewrite app_nil_r. destruct (c_ccs x); discriminate. }
      rewrite E1 in NE. apply NE. reflexivity. }
    cbn [fold_left]. destruct (step_next dc tr s o prog e) as [s' E]. assert (Es : s' = fst (fst (step dc tr (s, o, prog) e))) by (rewrite E; reflexivity). rewrite E. rewrite add_cons.
    assert (G1' : good s') by (rewrite Es; exact G1). assert (H1' : Pre ch tr (add ch [e] x) s') by (rewrite Es; exact H1).
    assert (HC' : is_ctrl ch e -> PS ch tr (add ch [e] x) s') by (rewrite Es; exact HC). clear G1 H1 HC. rename G1' into G1, H1' into H1, HC' into HC.
    assert (F' : free ch (next_o prog o e)) by (apply free_next; auto; apply NS; left; auto).
    destruct (IH s' (next_o prog o e) (next_p prog e) (add ch [e] x) (fun y Hy => NS y (or_intror Hy)) F' G1 H1) as [I1 [I2 I3]].
    split; auto. split; auto. intros [y [[<-|Hy] C]]; [|apply I3; eauto]. apply run_PS; auto.
Qed.
(** one track *)
Lemma track_ctrl : forall dc tr ch l1 l2 s, good s -> P0 ch tr s -> (forall e, In e l1 -> ~ starts_note ch e) ->
  ((exists e, In e l1 /\ is_ctrl ch e) \/ (forall e, In e l2 -> ~ is_prog ch e)) ->
  good (load_track dc s tr (l1 ++ l2)) /\ exists p, Phase ch tr p (mkC (channel_bends ch (l1 ++ l2)) (channel_ccs ch (l1 ++ l2))) (load_track dc s tr (l1 ++ l2)).
Proof.
  intros dc tr ch l1 l2 s G H NS C. unfold load_track.
  change (mkC (channel_bends ch (l1 ++ l2)) (channel_ccs ch (l1 ++ l2))) with (add ch (l1 ++ l2) (mkC [] [])). rewrite add_app, fold_left_app.
  destruct (run_Pre dc tr ch l1 s [] (fun _ => 0) (mkC [] [])) as [A [B D]]; auto; [intros k l []|left; auto|].
  destruct (fold_left (step dc tr) l1 (s, [], fun _ => 0)) as [[s1 o1] prog1] eqn:E0.
  assert (Es : s1 = fst (fst (fold_left (step dc tr) l1 (s, [], fun _ => 0)))) by (rewrite E0; reflexivity).
  assert (A' : good s1) by (rewrite Es; exact A). assert (B' : Pre ch tr (add ch l1 (mkC [] [])) s1) by (rewrite Es; exact B).
  assert (D' : (exists e, In e l1 /\ is_ctrl ch e) -> PS ch tr (add ch l1 (mkC [] [])) s1) by (rewrite Es; exact D). clear A B D E0 Es.
  rename A' into A, B' into B, D' into D. destruct C as [C|C].
  - pose proof (run_PS dc tr ch l2 s1 o1 prog1 (add ch l1 (mkC [] [])) A (D C)) as [E1 E2]. split; [exact E1|]. exists 0. right; right. exact E2.
  - assert (Phase ch tr (prog1 ch) (add ch l1 (mkC [] [])) s1) as B' by (destruct B; [left|right; right]; auto).
    pose proof (run_Phase dc tr ch l2 s1 o1 prog1 _ C A B') as [E1 E2]. split; [exact E1|]. exists (prog1 ch). exact E2.
Qed.
(** other tracks *)
Lemma track_other : forall dc tr' evs s o prog ch tr, tr' <> tr -> good s ->
  let s' := fst (fst (fold_left (step dc tr') evs (s, o, prog))) in
  good s' /\ (P0 ch tr s -> P0 ch tr s') /\ (forall p x, Phase ch tr p x s -> Phase ch tr p x s').
Proof.
  intros dc tr' evs. induction evs as [|[t m] evs IH]; intros s o prog ch tr Ne G; [simpl; auto|].
  assert (GOOD : forall s1, (good s1 /\ (P0 ch tr s -> P0 ch tr s1) /\ (forall p x, Phase ch tr p x s -> Phase ch tr p x s1)) ->
    forall o1 prog1, let s' := fst (fst (fold_left (step dc tr') evs (s1, o1, prog1))) in
    good s' /\ (P0 ch tr s -> P0 ch tr s') /\ (forall p x, Phase ch tr p x s -> Phase ch tr p x s')).
  { intros s1 [A [B C]] o1 prog1. destruct (IH s1 o1 prog1 ch tr Ne A) as [D [E F]]. simpl. auto 8. }
  cbn [fold_left]. cbv zeta. destruct (step_next dc tr' s o prog (t, m)) as [s1 E1].
  assert (good s1 /\ (P0 ch tr s -> P0 ch tr s1) /\ (forall p x, Phase ch tr p x s -> Phase ch tr p x s1)) as W; [|rewrite E1; apply GOOD; exact W].
  assert (s1 = fst (fst (step dc tr' (s, o, prog) (t, m)))) as Es by (rewrite E1; reflexivity).
  destruct (step_K (fun _ s1 => (P0 ch tr s -> P0 ch tr s1) /\ (forall p x, Phase ch tr p x s -> Phase ch tr p x s1)) dc tr' (ch) s o prog (t, m) (mkC [] [])) as [A [B C]]; auto.
  - intros _ s0 c k l n _ G0 [H1 H2]. assert ((c, tr') <> (ch, tr)) as Ne' by congruence.
    destruct (emit_other dc s0 prog tr' c n ch tr G0 Ne') as [A [B C]]. split; auto. intros p x H. destruct (H2 p x H) as [[Q ->]|[Q|Q]]; [left; auto|right; left; auto|right; right; auto].
  - intros _ s0 c f G0 _ [H1 H2]. assert ((c, tr') <> (ch, tr)) as Ne' by congruence.
    destruct (ctl_other s0 (prog c) c tr' f ch tr G0 Ne') as [A [B C]]. split; auto. intros p x H. destruct (H2 p x H) as [[Q ->]|[Q|Q]]; [left; auto|right; left; auto|right; right; auto].
  - intros _ s0 f G0 [H1 H2]. assert ((ch, tr') <> (ch, tr)) as Ne' by congruence.
    destruct (ctl_other s0 (prog ch) ch tr' f ch tr G0 Ne') as [A [B C]]. split; auto. intros p x H. destruct (H2 p x H) as [[Q ->]|[Q|Q]]; [left; auto|right; left; auto|right; right; auto].
  - rewrite Es. auto.
Qed.
Lemma tracks_other : forall dc l s tr0 ch tr, tr < tr0 -> good s -> forall p x, Phase ch tr p x s -> Phase ch tr p x (load_tracks dc s tr0 l).
Proof.
  induction l as [|e l IH]; intros s tr0 ch tr L G p x H; simpl; auto. destruct (track_other dc tr0 e s [] (fun _ => 0) ch tr) as [A [B C]]; [lia|auto|].
  apply IH; [lia|exact A|]. apply C. exact H.
Qed.
Lemma tracks_ctrl : forall dc l s tr0 j ch l1 l2, good s -> (forall t, tr0 <= t -> P0 ch t s) -> nth_error l j = Some (l1 ++ l2) ->
  (forall e, In e l1 -> ~ starts_note ch e) -> ((exists e, In e l1 /\ is_ctrl ch e) \/ (forall e, In e l2 -> ~ is_prog ch e)) ->
  exists p, Phase ch (tr0 + Z.of_nat j) p (mkC (channel_bends ch (l1 ++ l2)) (channel_ccs ch (l1 ++ l2))) (load_tracks dc s tr0 l).
Proof.
  induction l as [|e l IH]; intros s tr0 j ch l1 l2 G H E NS C; [destruct j; discriminate|]. destruct j as [|j]; simpl in E.
  - injection E as ->. simpl load_tracks. rewrite Z.add_0_r. destruct (track_ctrl dc tr0 ch l1 l2 s G (H tr0 ltac:(lia)) NS C) as [A [p B]].
    exists p. apply tracks_other; auto. lia.
  - simpl load_tracks. replace (tr0 + Z.of_nat (S j)) with (tr0 + 1 + Z.of_nat j) by lia.
    destruct (track_other dc tr0 e s [] (fun _ => 0) ch (tr0 + 1)) as [A _]; [lia|auto|].
    apply (IH (load_track dc s tr0 e)); auto. intros t Ht. destruct (track_other dc tr0 e s [] (fun _ => 0) ch t) as [_ [B _]]; [lia|auto|]. apply B. apply H. lia.
Qed.
Lemma C81_file : forall dc tracks i tk ch l1 l2 pr ins, nth_error tracks i = Some tk -> to_abs 0 tk = l1 ++ l2 ->
  (forall e, In e l1 -> ~ starts_note ch e) -> ((exists e, In e l1 /\ is_ctrl ch e) \/ (forall e, In e l2 -> ~ is_prog ch e)) ->
  inst_of (load_file dc tracks) (pr, ch, Z.of_nat i) = Some ins ->
  ctrl_of (load_file dc tracks) (pr, ch, Z.of_nat i) = Some (mkC (channel_bends ch (to_abs 0 tk)) (channel_ccs ch (to_abs 0 tk))).
Proof.
  intros dc tracks i tk ch l1 l2 pr ins E S NS C H. destruct (tracks_ctrl dc (map (to_abs 0) tracks) l_empty 0 i ch l1 l2) as [p P]; auto.
  - exists (fun _ => (0, 0)). split; [intros ? ? ? ? []|intros ? ? []].
  - intros t _. split; [reflexivity|intros p j []].
  - rewrite nth_error_map, E. simpl. rewrite S. reflexivity.
  - rewrite Z.add_0_l in P. rewrite S. eapply Phase_ctrl; [exact P|exact H].
Qed.
