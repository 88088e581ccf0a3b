(** Lemmas about M_Beats: the end of the piece, and tempo maps of loaded files. *)
From Coq Require Import Sorted Permutation Lia Lqa.
From Verif Require Import PyBase M_Ticks S_Ticks L_Ticks M_Beats S_Beats L_Base.

Lemma end_time_spec : forall l, (l = [] -> end_time l = 0%Q) /\ (l <> [] -> In (end_time l) l /\ forall x, In x l -> (x <= end_time l)%Q).
Proof.
  intros [|t r]; [split; auto; congruence|]. split; [discriminate|]. intros _. cbn [end_time].
  assert (G : forall r t, let m := fold_left (fun m x => if Qltb m x then x else m) r t in (m = t \/ In m r) /\ (t <= m)%Q /\ forall x, In x r -> (x <= m)%Q).
  { clear. induction r as [|y r IH]; intros t; cbn [fold_left]; [split; auto; split; [lra|intros x []]|]. destruct (Qltb t y) eqn:C.
    - apply Qltb_lt in C. destruct (IH y) as [A1 [A2 A3]]. cbv zeta. split; [destruct A1 as [->|A1]; right; [left|right]; auto|]. split; [lra|]. intros x [<-|X]; auto.
    - apply Qltb_ge in C. destruct (IH t) as [A1 [A2 A3]]. cbv zeta. split; [destruct A1 as [A1|A1]; [left; auto|right; right; auto]|]. split; auto. intros x [<-|X]; [lra|auto]. }
  destruct (G r t) as [A1 [A2 A3]]. split; [destruct A1 as [->|A1]; [left|right]; auto|]. intros x [<-|X]; auto.
Qed.
Lemma piece_end_spec : forall m sigs others, m <> [] ->
  let e := piece_end m sigs others in
  (In e others \/ (exists s, In s sigs /\ ts_time s = e) \/ (exists c, In c m /\ fst c = e)) /\
  (forall x, In x others -> x <= e)%Q /\ (forall s, In s sigs -> ts_time s <= e)%Q /\ (forall c, In c m -> fst c <= e)%Q.
Proof.
  intros m sigs others NE e. unfold e, piece_end. destruct (end_time_spec (others ++ map ts_time sigs ++ map fst m)) as [_ H].
  destruct H as [H1 H2]. { intro E. apply app_eq_nil in E as [_ E]. apply app_eq_nil in E as [_ E]. destruct m; [congruence|discriminate]. }
  split; [|split; [|split]].
  - apply in_app_iff in H1 as [H1|H1]; auto. apply in_app_iff in H1 as [H1|H1]; apply in_map_iff in H1 as [x [X1 X2]]; [right; left|right; right]; exists x; auto.
  - intros x X. apply H2. apply in_app_iff. auto.
  - intros s X. apply H2. apply in_app_iff. right. apply in_app_iff. left. apply in_map. auto.
  - intros c X. apply H2. apply in_app_iff. right. apply in_app_iff. right. apply in_map. auto.
Qed.

Open Scope Z_scope.
Lemma tempo_map_loaded : forall r evs last ops, 0 < r -> tempo_events evs -> (forall e, In e evs -> fst e <= last) -> 0 <= last < MAX_TICK ->
  exists p m, pm_load r evs last = Ok p /\ fst (get_tempo_changes (pm_run p ops)) = Ok m /\ tempo_map m.
Proof.
  intros r evs last ops Hr TE HL H. destruct (tempo_report r evs last ops Hr TE HL H) as [p [out [E [E2 [[c [o [EO _]]] [SS _]]]]]]. exists p, out. split; auto. split; auto. split; [congruence|]. split; auto.
  destruct (pm_load_ok r evs last Hr TE ltac:(lia) ltac:(lia)) as [p0 [m [E0 [Em [[V [F [NR B]]] [I R]]]]]]. assert (p0 = p) by congruence. subst p0.
  destruct (pm_run_inv m ops p V I) as [I' R']. set (p' := pm_run p ops) in *.
  destruct (tempo_changes_ok m m p' V) as [out' [p2 [E3 [_ [_ F2]]]]]; auto; [|lia|].
  { intros x Hx. destruct V as [V0 [V1 V2]]. split; [|apply V2; auto]. destruct (B x Hx) as [->|[e [He He2]]]; [unfold MAX_TICK; lia|].
    rewrite <- He2. destruct TE as [_ TE]. destruct (TE e He). specialize (HL e He). lia. }
  assert (out' = out). { unfold get_tempo_changes in E2. destruct I' as [I0 _]. rewrite I0 in E2. rewrite E3 in E2. cbn in E2. congruence. } subst out'.
  destruct V as [V0 [V1 V2]].
  assert (RP : (0 < inject_Z (p_res p'))%Q). { replace 0%Q with (inject_Z 0) by reflexivity. rewrite <- Zlt_Qlt. lia. }
  clear - F2 V2 RP. intros d D. assert (G : exists x, In x m /\ (snd d == 60 / (snd x * inject_Z (p_res p')))%Q).
  { clear V2. induction F2 as [|x y l l' [Q1 Q2] FF IH]; [destruct D|]. destruct D as [<-|D]; [exists x; split; [left; auto|auto]|]. destruct (IH D) as [z [Z1 Z2]]. exists z. split; [right; auto|auto]. }
  destruct G as [x [X1 X2]]. rewrite X2. apply Qlt_shift_div_l; [|lra]. apply Qmult_lt_0_compat; auto.
Qed.
