(** to_pretty_midi stretches linearly. *)
From Coq Require Import Lqa Lia Sorted Permutation.
From Verif Require Import PyBase L_Base M_Beats L_Beats5 M_Adjust S_Adjust L_Adjust L_Adjust2 L_Adjust3 L_Adjust4 M_SortedDict M_Note L_Note M_Events M_Seq S_Seq L_Seq M_Seqs M_Ticks S_Ticks L_Ticks M_Load M_Write M_Meta M_Song M_Reader S_Reader L_Reader L_Reader2 L_Reader3 M_Pipe M_Tempi S_Tempi L_Tempi L_Tempi2 M_Convert S_Convert L_Convert L_Convert2 L_Convert3.
Open Scope Z_scope.

Lemma clip_range : forall e x, (0 <= e)%Q -> (0 <= clip 0 e x)%Q /\ (clip 0 e x <= e)%Q /\ ((clip 0 e x < e)%Q -> (clip 0 e x == Qmaxb 0 x)%Q) /\ ((0 < clip 0 e x)%Q -> (clip 0 e x == Qminb x e)%Q).
Proof.
  intros e x E. unfold clip. destruct (Qmaxb_spec x 0) as [[A ->]|[A ->]]; destruct (Qmaxb_spec 0 x) as [[B ->]|[B ->]];
  try (destruct (Qminb_spec x e) as [[C ->]|[C ->]]); try (destruct (Qminb_spec 0 e) as [[D ->]|[D ->]]); split; try lra; split; try lra; split; intros; try lra.
Qed.
Lemma stages : forall fuel srt so a b sg, argsorts srt -> to_pretty_midi fuel srt so a (Some b) = Ok (Some sg) -> exists raw sg1,
  convert_raw so (Some b) = Ok raw /\ convert_fit fuel raw a (Some b) = Ok (Some sg1) /\ convert_log srt sg1 = Ok sg /\
  has_rhythm (flat_map si_notes (sg_insts sg)) /\ sg_insts sg = sg_insts sg1 /\ sg_meta sg = sg_meta sg1.
Proof.
  intros fuel srt so a b sg A H. unfold to_pretty_midi in H. destruct (convert_raw so (Some b)) as [raw|e]; cbn [bind] in H; [|discriminate].
  destruct (convert_fit fuel raw a (Some b)) as [[sg1|]|e] eqn:F; cbn [bind] in H; try discriminate.
  destruct (convert_log srt sg1) as [sg2|e] eqn:L; cbn [bind] in H; [|discriminate]. assert (sg2 = sg) by congruence. subst sg2. exists raw, sg1.
  destruct (log_rhythm srt sg1 sg A L) as (R & E & M). rewrite E. auto 10.
Qed.
Lemma fit_line : forall fuel raw a b sg1, convert_fit fuel raw a (Some b) = Ok (Some sg1) ->
  (exists i n, In i (sg_insts raw) /\ In n (si_notes i) /\ (0 < sn_end n)%Q) -> exists tempi p1,
  get_tempo_changes (sg_pm raw) = (Ok tempi, p1) /\ let e := piece_end tempi (tsigs (sg_meta raw)) (other_times raw) in (0 < e)%Q /\
  exists lo hi, (0 <= lo)%Q /\ (lo < hi)%Q /\ (hi <= e)%Q /\ (lo == Qmaxb 0 (match a with Some v => v | None => 0%Q end))%Q /\ (hi == Qminb b e)%Q /\
  sg_insts sg1 = map (refit [(0, lo); (e, hi)]%Q) (sg_insts raw).
Proof.
  intros fuel raw a b sg1 H (i & n & I & N & P). destruct (fit_parts fuel raw a b sg1 H) as (tempi & p1 & m & s & p2 & G & K). cbv zeta in K. exists tempi, p1. split; auto. cbv zeta.
  set (e := piece_end tempi (tsigs (sg_meta raw)) (other_times raw)) in *. destruct K as (TM & NM & (snap & tempi2 & NS) & _ & INS).
  assert (E : (0 < e)%Q) by (pose proof (end_note tempi raw i n I N); fold e in H0; lra). split; auto.
  set (a0 := match a with Some v => v | None => 0%Q end) in *.
  destruct (two_points e (clip 0 e a0) (clip 0 e b) E) as (y' & T1 & T2 & T3 & T4). rewrite T1 in TM. apply Ok_inj in TM. subst m.
  destruct (clip_range e a0 ltac:(lra)) as (A1 & A2 & A3 & _). destruct (clip_range e b ltac:(lra)) as (B1 & B2 & _ & B3).
  assert (LT : (clip 0 e a0 < y')%Q).
  { destruct (Qlt_le_dec (clip 0 e a0) y') as [|L]; auto. exfalso. assert (EQ : (clip 0 e a0 == y')%Q) by lra.
    destruct (new_tempi _ tempi2) as [|c r] eqn:NT; [discriminate|]. assert (TN : tempi2 <> []). { intros ->. unfold new_tempi in NT. destruct (progress _) as [|[? ?] ?] in NT; discriminate. }
    assert (LN : ~ (List.length (moving (map (fun c => (snap (fst c), snd c)) [(0%Q, clip 0 e a0); (e, y')])) < 2)%nat). { intro X. apply (new_tempi_nil _ tempi2 TN) in X. congruence. }
    apply LN. cbn [map moving combine filter fst snd]. replace (Qeq_bool (clip 0 e a0) y') with true by (symmetry; apply Qeq_bool_iff; auto). cbn. lia. }
  assert (YB : y' = clip 0 e b) by (destruct (Qlt_le_dec (clip 0 e b) (clip 0 e a0)) as [X|X]; [specialize (T4 X); subst; lra|auto]).
  exists (clip 0 e a0), y'. subst y'. split; auto. split; auto. split; auto. split; [apply A3; lra|]. split; [apply B3; lra|]. exact INS.
Qed.

Definition bends_moved (f : Q -> Q) (lo hi : Q) : list (Q * Z) -> list (Q * Z) -> Prop := retimed fst (fun e t => (t, snd e)) f lo hi.
Definition ccs_moved (f : Q -> Q) (lo hi : Q) : list (Q * Z * Z) -> list (Q * Z * Z) -> Prop := retimed (fun c => fst (fst c)) (fun c t => (t, snd (fst c), snd c)) f lo hi.
Lemma refit_events : forall e lo hi i, (0 < e)%Q -> (lo < hi)%Q -> exists f, (forall t, (0 <= t)%Q -> (t <= e)%Q -> (f t == lo + (hi - lo) / e * t)%Q) /\
  bends_moved f lo hi (si_bends i) (si_bends (refit [(0, lo); (e, hi)]%Q i)) /\ ccs_moved f lo hi (si_ccs i) (si_ccs (refit [(0, lo); (e, hi)]%Q i)).
Proof.
  intros e lo hi i E L. exists (interp [(0, lo); (e, hi)]%Q). split; [intros; apply line; auto|].
  assert (A : asc [(0, lo); (e, hi)]%Q). { constructor; [constructor; constructor|]. constructor; [|constructor]. cbn. split; lra. }
  split; cbn [refit si_bends si_ccs]; unfold bends_moved, ccs_moved; [change lo with (first_y [(0, lo); (e, hi)]%Q) at 2|change lo with (first_y [(0, lo); (e, hi)]%Q) at 2]; change hi with (last_y [(0, lo); (e, hi)]%Q) at 3; apply retimed_list; auto.
Qed.
