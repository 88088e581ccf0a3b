(** Lemmas about M_BeatsF: agreement with exact arithmetic; downbeats. *)
From Coq Require Import Sorted Permutation Lia Lqa Qfield Qabs Qpower Qround.
From Verif Require Import PyBase M_Float M_Beats M_BeatsF S_Beats S_Snap S_ShiftF S_BeatsF L_Base L_Note L_Float L_Float2 L_Snap L_NoteF L_NoteF2 L_UtilsF L_UtilsF2 L_UtilsF3 L_Utils P_Rounding L_ShiftF L_Beats L_Beats2 L_Beats3 L_Beats4 L_BeatsF L_BeatsF2 L_BeatsF3 L_BeatsF4.
Open Scope Q_scope.

Definition same_list (o o' : option (list Q)) : Prop :=
  match o, o' with Some l, Some l' => Forall2 Qeq l l' | None, None => True | _, _ => False end.
Lemma plain_next_exact : forall x q, next_beat (plain x q) = plain (x + 60 / q) q.
Proof. reflexivity. Qed.
Lemma f_exact_loop : forall e b q stop, (0 < b)%Z -> 60 / q == inject_Z b * 2 ^ e -> stop + 60 / q <= inject_Z (2 ^ 53) * 2 ^ e ->
  forall fuel x x' a, x == x' -> x == inject_Z a * 2 ^ e -> (0 <= a)%Z -> same_list (beat_loop_f fuel stop (plain x q)) (beat_loop fuel stop (plain x' q)).
Proof.
  intros e b q stop B0 PE SB. assert (E0 : 0 < 2 ^ e) by (apply Qpower_0_lt; reflexivity).
  assert (SI : forall x y : Q, x == y -> Qltb x stop = Qltb y stop) by (intros x y E; destruct (Qltb y stop) eqn:L; [apply Qltb_lt in L; apply Qltb_lt; lra|apply Qltb_ge in L; apply Qltb_ge; lra]).
  induction fuel as [|k IH]; intros x x' a XX XA AL; cbn [beat_loop_f beat_loop]; change (b_last (plain x q)) with x; change (b_last (plain x' q)) with x'; rewrite (SI x x' XX); destruct (Qltb x' stop) eqn:L; try exact I; try (constructor).
  rewrite plain_next, plain_next_exact. apply Qltb_lt in L.
  assert (P0 : 0 < 60 / q) by (rewrite PE; apply Qmult_lt_0_compat; auto; change 0 with (inject_Z 0); rewrite <- Zlt_Qlt; auto).
  assert (AB : (a + b <= 2 ^ 53)%Z).
  { rewrite Zle_Qle. rewrite inject_Z_plus. apply Qmult_lt_0_le_reg_r with (2 ^ e); auto. rewrite Qmult_plus_distr_l. rewrite <- PE, <- XA. lra. }
  assert (F1 : fl (60 / q) == 60 / q) by (apply (fl_dyadic b e); [lia|exact PE]).
  assert (F2 : after_f x q == inject_Z (a + b) * 2 ^ e).
  { unfold after_f. rewrite (fl_m (x + fl (60 / q)) (x + 60 / q)) by (rewrite F1; reflexivity). rewrite (fl_dyadic (a + b) e); [|lia|]; rewrite XA, PE, inject_Z_plus; ring. }
  assert (F3 : after_f x q == x' + 60 / q) by (rewrite F2, <- XX, XA, PE, inject_Z_plus; ring).
  specialize (IH (after_f x q) (x' + 60 / q) (a + b)%Z F3 F2 ltac:(lia)). unfold same_list in IH. destruct (beat_loop_f k stop (plain (after_f x q) q)), (beat_loop k stop (plain (x' + 60 / q) q)); try contradiction; try exact I. constructor; auto.
Qed.
Lemma f_exact : forall t0 q others start e a b, start == inject_Z a * 2 ^ e -> 60 / q == inject_Z b * 2 ^ e -> (0 <= a)%Z -> (0 < b)%Z ->
  piece_end [(t0, q)] [] others + 60 / q <= inject_Z (2 ^ 53) * 2 ^ e ->
  forall fuel, exists o o', get_beats_f fuel [(t0, q)] [] others start = Ok o /\ get_beats fuel [(t0, q)] [] others start = Ok o' /\ same_list o o'.
Proof.
  intros t0 q others start e a b SA PE A0 B0 SB fuel. eexists. eexists. split; [reflexivity|]. split; [reflexivity|]. change (sort_sigs []) with (@nil tsig).
  apply (f_exact_loop e b q _ B0 PE SB fuel start start a); auto. reflexivity.
Qed.

(** ** downbeats *)
Lemma spans_f_ok : forall beats rest e s, meters (s :: rest) -> exists d, down_spans_f beats e s rest = Ok d /\ forall x, In x d -> In x beats.
Proof.
  intros beats. induction rest as [|s' r IH]; intros e s M; cbn [down_spans_f].
  - rewrite stride_ok by (apply (M s); left; auto). eexists. split; [reflexivity|]. intros x X. eapply skipn_incl, every_incl, X.
  - rewrite stride_ok by (apply (M s); left; auto). cbn [bind]. destruct (IH (index_close_f beats (ts_time s') (index_close_f beats (ts_time s) 0)) s') as [d [-> D]]; [intros y Y; apply M; right; auto|]. cbn [bind]. eexists. split; [reflexivity|].
    intros x X. apply in_app_iff in X as [X|X]; auto. eapply slice_incl, every_incl, X.
Qed.
Lemma downbeats_f_ok : forall beats sigs start, meters sigs -> exists d, downbeats_of_f beats sigs start = Ok d /\ forall x, In x d -> In x beats /\ start <= x.
Proof.
  intros beats sigs start M. unfold downbeats_of_f. cbv zeta.
  assert (A : exists d, match sigs with [] => down_spans_f beats 0 (mkTS 4 4 start) [] | s :: r => if Qltb start (ts_time s) then down_spans_f beats 0 (mkTS 4 4 start) (s :: r) else down_spans_f beats 0 s r end = Ok d /\ forall x, In x d -> In x beats).
  { destruct sigs as [|s r]; [|destruct (Qltb start (ts_time s))]; apply spans_f_ok; auto; intros x [<-|X]; cbn; auto; try lia; destruct X. }
  destruct A as [d [-> D]]. cbn [bind]. eexists. split; [reflexivity|]. intros x X. apply filter_In in X as [X1 X2]. split; auto. apply Qle_bool_iff. auto.
Qed.
Lemma down_f_are : forall m sigs others start l d, beats_f_are m sigs others start l -> downbeats_of_f l (sort_sigs sigs) start = Ok d -> downbeats_f_are m sigs others start d.
Proof. intros m sigs others start l d [N B] D. exists N. intros fuel F. unfold get_downbeats_f. rewrite (B fuel F). cbn [bind]. rewrite D. auto. Qed.
Lemma f_downbeats : forall m sigs others start l, meters sigs -> beats_f_are m sigs others start l -> exists d, downbeats_f_are m sigs others start d /\ forall x, In x d -> In x l /\ start <= x.
Proof. intros m sigs others start l M B. destruct (downbeats_f_ok l (sort_sigs sigs) start (meters_sort _ M)) as [d [D1 D2]]. exists d. split; auto. eapply down_f_are; eauto. Qed.
