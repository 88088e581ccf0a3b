From Coq Require Import Lia Lqa Sorted Qround.
From Verif Require Import PyBase L_Base M_Ticks S_Ticks L_Ticks M_Load M_Write.
Open Scope Z_scope.

Lemma loop_entries : forall r evs m m', 0 < r -> (forall e, In e evs -> 0 < snd e) -> load_tempo_loop r evs m = Ok m' ->
  (forall x, In x m -> exists tp, 0 < tp /\ (snd x == tlen r tp)%Q) -> forall x, In x m' -> exists tp, 0 < tp /\ (snd x == tlen r tp)%Q.
Proof.
  intros r evs. induction evs as [|[tk tp] evs IH]; intros m m' Hr P E H; cbn [load_tempo_loop] in E.
  - injection E as <-. auto.
  - assert (Ht : 0 < tp) by (apply (P (tk, tp)); left; auto). destruct (scale_tempo_ok tp r Ht Hr) as [s [Es [Es2 _]]]. rewrite Es in E. cbn [bind] in E.
    assert (P' : forall e, In e evs -> 0 < snd e) by (intros; apply P; right; auto).
    destruct (tk =? 0); [eapply IH; eauto; intros x [<-|[]]; eauto|]. destruct (rev m) as [|[a l] rm]; [discriminate|].
    destruct (Qeq_bool s l); [eapply IH; eauto|]. eapply IH; eauto. intros x Hx. apply in_app_iff in Hx as [Hx|[<-|[]]]; eauto.
Qed.
Definition us (r : Z) (sc : Q) : Z := Qfloor (60000000 / (60 / (sc * inject_Z r))).
Lemma us_tlen : forall r sc tp, 0 < r -> 0 < tp -> (sc == tlen r tp)%Q -> us r sc = tp.
Proof.
  intros r sc tp Hr Ht E. unfold us. rewrite <- (Qfloor_Z tp). apply Qfloor_comp. rewrite E. unfold tlen.
  pose proof (inject_pos' r Hr). pose proof (inject_pos' tp Ht). field. repeat split; lra.
Qed.
Lemma at_tick_map : forall A B (g : A -> B) l j d, at_tick (map (fun x => (fst x, g (snd x))) l) j (g d) = g (at_tick l j d).
Proof.
  intros A B g l j. unfold at_tick. induction l as [|[t x] l IH]; intros d; [reflexivity|]. cbn [map fold_left fst snd].
  destruct (t <=? j); apply IH.
Qed.
Lemma tempo_round : forall r evs m, 0 < r -> tempo_events evs -> load_tempo r evs = Ok m ->
  tempo_events (write_tempo r m) /\ forall j, 0 <= j -> at_tick (write_tempo r m) j 500000 = at_tick evs j 500000.
Proof.
  intros r evs m Hr TE E. destruct (load_ok r evs Hr TE) as [m' [E' [V [F _]]]]. assert (m' = m) by congruence. subst m'.
  assert (EN : forall x, In x m -> exists tp, 0 < tp /\ (snd x == tlen r tp)%Q).
  { unfold load_tempo in E. destruct (scale_bpm_ok 120 r) as [s [Es [Es2 _]]]; auto; [lra|]. rewrite Es in E. cbn [bind] in E.
    eapply loop_entries; [exact Hr|intros e He; apply TE; exact He|exact E|]. intros x [<-|[]]. exists 500000. split; [lia|]. cbn [snd]. rewrite Es2. unfold tlen.
    pose proof (inject_pos' r Hr). field. lra. }
  split.
  - split.
    + destruct V as [_ [V _]]. unfold msorted in V. unfold write_tempo. clear - V. induction V as [|x l V IH H]; cbn [map]; constructor.
      * exact IH.
      * rewrite Forall_forall in *. intros y Hy. apply in_map_iff in Hy as [z [<- Hz]]. simpl. auto.
    + intros e He. unfold write_tempo in He. apply in_map_iff in He as [x [<- Hx]]. cbn [fst snd]. split; [apply (vmap_nonneg m x V Hx)|].
      destruct (EN x Hx) as [tp [T1 T2]]. pose proof (us_tlen r (snd x) tp Hr T1 T2) as U. unfold us in U. rewrite U. auto.
  - intros j Hj. assert (at_tick (write_tempo r m) j 500000 = us r (at_tick m j 0%Q)) as ->.
    { rewrite <- (at_tick_map _ _ (us r)). unfold write_tempo, us. destruct V as [[s [l ->]] _]. unfold at_tick. cbn [map fold_left fst snd].
      destruct (Z.leb_spec 0 j); [reflexivity|lia]. }
    apply us_tlen; auto.
    + destruct (at_tick_In _ evs j 500000) as [->|[e [H1 ->]]]; [lia|]. apply TE; auto.
    + apply (F j Hj).
Qed.
