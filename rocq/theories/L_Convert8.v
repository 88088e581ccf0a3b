(** Writing an object with one tempo whose notes lie on ticks, and loading the file. *)
From Coq Require Import Lqa Lia Sorted Permutation Qabs Qround.
From Verif Require Import PyBase L_Base M_Beats L_Beats5 M_Adjust S_Adjust L_Adjust L_Adjust2 L_Adjust3 L_Adjust4 M_SortedDict M_Note L_Note M_Events M_Seq S_Seq L_Seq M_Seqs M_Ticks S_Ticks L_Ticks M_Load S_Load M_Write S_Write M_Meta L_Meta M_Song S_Song L_Song L_Song2 L_Song6 M_Reader S_Reader L_Reader L_Reader2 L_Reader3 L_Reader6 M_Pipe M_Tempi S_Tempi L_Tempi L_Tempi2 M_Convert S_Convert L_Convert L_Convert2 L_Convert3 L_Convert4 L_Convert5 L_Convert6 L_Convert7 P_Convert.
Open Scope Z_scope.

(** The times of the ticks when a quarter note takes [us] microseconds. *)
Definition even_clock (us r k : Z) : Q := (inject_Z k * (inject_Z us / (1000000 * inject_Z r)))%Q.
Definition on_grid (us r : Z) (n : rnote) (w : pnote) : Prop :=
  rn_vel n = pn_vel w /\ rn_pitch n = pn_pitch w /\ (rn_start n == even_clock us r (pn_start w))%Q /\ (rn_end n == even_clock us r (pn_end w))%Q.
Definition grid_notes (us r : Z) (k : list rnote) : Prop :=
  exists ws, Forall2 (on_grid us r) k ws /\ sequential ws /\ (forall w, In w ws -> 0 < pn_vel w /\ 0 <= pn_start w).
(** A note with the same values and times. *)
Definition equal_note (n : rnote) (n' : snote) : Prop :=
  sn_vel n' = rn_vel n /\ sn_pitch n' = rn_pitch n /\ (sn_start n' == rn_start n)%Q /\ (sn_end n' == rn_end n)%Q.
Definition nonempty (i : rinst) : bool := match ri_notes i with [] => false | _ => true end.

Lemma tick_unique : forall (c t : Q) k j, (0 < c)%Q -> (t == inject_Z k * c)%Q -> (Qabsb (t - inject_Z j * c) <= Qabsb (t - inject_Z k * c))%Q -> j = k.
Proof.
  intros c t k j C E H. rewrite (Qabsb_comp (t - inject_Z k * c) 0) in H by (rewrite E; lra). destruct (Qabsb_spec 0) as [[A EA]|[A EA]]; rewrite EA in H; [|lra].
  assert (Z0 : (t - inject_Z j * c == 0)%Q) by (destruct (Qabsb_spec (t - inject_Z j * c)) as [[B EB]|[B EB]]; rewrite EB in H; lra).
  assert (X : ((inject_Z k - inject_Z j) * c == 0)%Q) by lra. apply Qmult_integral in X as [X|X]; [|lra].
  destruct (Z.lt_trichotomy j k) as [L|[L|L]]; auto; exfalso; rewrite Zlt_Qlt in L; lra.
Qed.
Lemma filter_map_nonempty : forall l, filter has_notes (map inst_of l) = map inst_of (filter nonempty l).
Proof. induction l as [|i l IH]; cbn; auto. unfold has_notes at 1, nonempty at 1. cbn. destruct (ri_notes i); cbn; rewrite IH; reflexivity. Qed.

Section CORE.
Variables (fuel : nat) (srt : list Q -> list nat) (keynum : string -> res Z) (f : mfile) (so : M_Reader.song) (s : sig Q) (a : option Q) (b : Q) (sg : M_Song.song) (us : Z) (file2 : list ftrack).
Hypothesis A : argsorts srt.
Hypothesis FO : S_Reader.file_ok f.
Hypothesis RD : read f = Ok so.
Hypothesis AU : has_audible f.
Hypothesis ES : so_tempos so = [s].
Hypothesis S0 : (g_time s <= 0)%Q.
Hypothesis US : 0 < us.
Hypothesis QS : (g_data s == 60000000 / inject_Z us)%Q.
Hypothesis LA : match a with Some v => (v <= 0)%Q | None => True end.
Hypothesis TB : (so_total so <= b)%Q.
Hypothesis H : to_pretty_midi fuel srt so a (Some b) = Ok (Some sg).
Hypothesis KK : knows_keys keynum.
Hypothesis SE : serialize 9 sg [] = Ok file2.
Hypothesis SH : short file2.
Hypothesis GR : forall i k, In i (mf_insts f) -> survivors [] (ri_notes i) k -> grid_notes us (mf_res f) k.
Variable r : Z.
Hypothesis ER : mf_res f = r.

Lemma core : exists l sg',
  Forall2 (fun i o => ri_prog o = 0 /\ ri_drum o = ri_drum i /\ survivors [] (ri_notes i) (ri_notes o) /\ ri_bends o = [] /\ ri_ccs o = []) (mf_insts f) l /\
  load_song keynum 9 r file2 = Ok sg' /\
  Forall2 (fun o i' => si_prog i' = 0 /\ si_drum i' = ri_drum o /\ si_bends i' = [] /\ si_ccs i' = [] /\
    StronglySorted (fun a b => (sn_end a <= sn_end b)%Q) (si_notes i') /\ exists w, Permutation w (ri_notes o) /\ Forall2 equal_note w (si_notes i')) (filter nonempty l) (sg_insts sg') /\
  (forall x, In x (md_keys (sg_meta sg')) -> 0 <= fst x < 24) /\ (forall x, In x (md_times (sg_meta sg')) -> pow_ok (fst x)) /\
  exists lt, pm_load r [(0, us)] lt = Ok (sg_pm sg') /\ 0 <= lt < MAX_TICK.
Proof.
  assert (Hr : 0 < r) by (rewrite <- ER; apply FO). pose proof GR as GR'. rewrite ER in GR'. assert (R0 : (0 < inject_Z r)%Q) by (apply inject_pos'; auto). assert (U0 : (0 < inject_Z us)%Q) by (apply inject_pos'; auto).
  assert (QP : (0 < g_data s)%Q) by (rewrite QS; apply Qlt_shift_div_l; lra).
  destruct (one_piece fuel srt f so s a b sg A FO RD AU ES S0 QP LA H) as (raw & e & lo & hi & k & q & p0 & RW & ET & LO & LO' & LH & HI & K0 & KN & QE & PN & PR & IS & MK & MT & ML). rewrite ER in *.
  set (c := (60 / (g_data s * inject_Z r))%Q) in *. assert (CE : (c == inject_Z us / (1000000 * inject_Z r))%Q) by (unfold c; rewrite QS; field; lra).
  assert (CP : (0 < c)%Q) by (unfold c; apply Qlt_shift_div_l; [apply Qmult_lt_0_compat; auto|lra]).
  assert (EC : forall j, (even_clock us r j == inject_Z j * c)%Q) by (intro j; unfold even_clock; rewrite CE; reflexivity).
  destruct (raw_insts f so b raw FO RD AU RW) as (l & RI & BK & OK & LAST). pose proof (total_pos f so FO RD AU) as TP.
  assert (GL : forall o, In o l -> grid_notes us r (ri_notes o)). { intros o O. destruct (F2_in_r _ _ _ _ _ _ BK O) as [i [I (_ & _ & SV & _)]]. exact (GR' i _ I SV). }
  (* the end is on a tick *)
  assert (TK : exists j, 0 <= j /\ (so_total so == inject_Z j * c)%Q).
  { destruct LAST as (o & n & O & N & E). destruct (GL o O) as (ws & F & SQ & W). destruct (F2_in_l _ _ _ _ _ _ F N) as [w [IW (_ & _ & _ & X)]]. exists (pn_end w). split; [destruct (W w IW); pose proof (proj1 SQ w IW); lia|]. rewrite <- E, X. apply EC. }
  destruct TK as (j & J0 & J1). pose proof (tick_unique c (so_total so) j k CP J1 (KN j J0)). subst j.
  assert (HE : (hi == e)%Q). { rewrite HI. destruct (Qminb_spec b e) as [[? ->]|[? ->]]; lra. }
  assert (QQ : (q == g_data s)%Q). { rewrite QE, <- J1, HE, ET. field. lra. }
  assert (Q0 : (0 < q)%Q) by lra. assert (Q1 : (q <= 60000000)%Q). { rewrite QQ, QS. apply Qle_shift_div_r; auto. assert (1 <= inject_Z us)%Q by (change 1%Q with (inject_Z 1); rewrite <- Zle_Qle; lia). lra. }
  assert (FL : Qfloor (60000000 / q) = us). { rewrite <- (Qfloor_Z us). apply Qfloor_comp. rewrite QQ, QS. field. lra. }
  assert (CK : forall j, (inject_Z j * (60 / (q * inject_Z r)) == inject_Z j * c)%Q) by (intro j; unfold c; rewrite QQ; reflexivity).
  (* the instruments of the piece *)
  set (m := [(0, lo); (e, hi)]%Q) in *. assert (EP : (0 < e)%Q) by lra.
  assert (NOTES : forall o, In o l -> Forall2 equal_note (ri_notes o) (si_notes (refit m (inst_of o)))).
  { intros o O. pose proof (notes_line e lo hi (inst_of o) EP LO' LH) as NL. fold m in NL. assert (X : forall n, In n (si_notes (inst_of o)) -> (0 <= sn_start n /\ sn_end n <= e)%Q).
    { intros n N. cbn in N. apply in_map_iff in N as [w [<- W]]. cbn. destruct (OK o w O W) as ((_ & _ & P & _) & _ & P2). split; [auto|lra]. }
    specialize (NL X). cbn [inst_of si_notes] in NL. apply carried_unmap in NL. eapply carried_all in NL; [|intros n N; exact (proj1 (proj2 (OK o n O N)))].
    eapply Forall2_imp; [|exact NL]. intros n n' _ _ (N1 & N2 & N3 & N4). cbn in *. split; auto. split; auto. rewrite N3, N4, LO, HE. split; field; lra. }
  assert (INS : forall i, In i (sg_insts sg) -> si_notes i = [] \/ exists o, In o l /\ i = refit m (inst_of o)).
  { intros i I. rewrite IS, RI in I. cbn [map] in I. destruct I as [<-|I]; [left; reflexivity|]. right. rewrite map_map in I. apply in_map_iff in I as [o [<- O]]. eauto. }
  assert (PLAY : forall i, In i (sg_insts sg) -> playable (sg_pm sg) i).
  { intros i I. destruct (INS i I) as [EN|[o [O ->]]].
    - split; [rewrite EN; intros ? []|]. exists []. rewrite EN. split; [constructor|]. split; [intros ? []|]. split; [intros [|? ?]; discriminate|intros ? ? []].
    - pose proof (NOTES o O) as NO. destruct (GL o O) as (ws & F & SQ & W). split.
      + intros n' N'. destruct (F2_in_r _ _ _ _ _ _ NO N') as [n [N (E1 & _)]]. rewrite E1. destruct (F2_in_l _ _ _ _ _ _ F N) as [w [IW (E2 & _)]]. rewrite E2. apply W; auto.
      + exists ws. split; auto. destruct (C37b r q p0 [PmTime 1; PmTempi] Hr Q0 PN) as (_ & EX & _). rewrite <- PR in EX.
        assert (TT : forall j t, 0 <= j -> (t == even_clock us r j)%Q -> time_to_tick (sg_pm sg) t = Ok j).
        { intros j t J E. apply EX; auto. rewrite E, EC. rewrite <- CK. field. split; lra. }
        clear - NO F W SQ TT. assert (P : forall w, In w ws -> 0 <= pn_start w /\ 0 <= pn_end w) by (intros w I; pose proof (proj2 (W w I)); pose proof (proj1 SQ w I); lia). clear W SQ.
        revert ws F P. induction NO as [|n n' ln ln' (E1 & E2 & E3 & E4) NO IH]; intros ws F P; inversion F as [|? w ? ws' (G1 & G2 & G3 & G4) F']; subst; constructor.
        * destruct (P w (or_introl eq_refl)). split; [apply TT; auto; rewrite E3, G3; reflexivity|]. split; [apply TT; auto; rewrite E4, G4; reflexivity|]. split; congruence.
        * apply IH; auto. intros; apply P; right; auto. }
  assert (SGO : signatures_ok (sg_meta sg)) by (split; [exact MK|intros x X; apply (MT x X)]).
  destruct (scratch_round_full keynum 9 r q p0 _ sg file2 Hr (conj Q0 Q1) PN PR KK SGO PLAY SE SH) as (sg' & LS & LT & SM & _). rewrite FL in LT, SM.
  exists l, sg'. split; auto. split; auto. destruct SM as (SK & ST & _ & SI). split; [|split; [|split; auto]].
  - rewrite IS, RI in SI. cbn [map filter] in SI. replace (has_notes (refit m (inst_of (mkRI 0 false "" [] [] [])))) with false in SI by reflexivity.
    assert (FE : filter has_notes (map (refit m) (map inst_of l)) = map (fun o => refit m (inst_of o)) (filter nonempty l)).
    { clear - NOTES. induction l as [|o l IH]; cbn [map filter]; auto. rewrite IH by (intros; apply NOTES; right; auto). pose proof (NOTES o (or_introl eq_refl)) as F. 
      assert (HN : has_notes (refit m (inst_of o)) = nonempty o) by (unfold has_notes, nonempty; destruct (si_notes (refit m (inst_of o))); destruct (ri_notes o); inversion F; reflexivity).
      rewrite HN. destruct (nonempty o); reflexivity. }
    rewrite FE in SI. assert (SUB : forall o, In o (filter nonempty l) -> In o l) by (intros o O; apply filter_In in O; apply O).
    clear - SI SUB NOTES BK CP CK EC CE GL R0 U0. revert SI SUB. generalize (sg_insts sg'). induction (filter nonempty l) as [|o w IH]; intros is SI SUB; cbn [map] in SI; inversion SI as [|? i' ? is' (B1 & B2 & B3 & B4 & B5 & B6 & B7 & B8 & B9) SI']; subst; constructor; [|apply IH; auto; intros; apply SUB; right; auto].
    assert (O : In o l) by (apply SUB; left; auto). destruct (F2_in_r _ _ _ _ _ _ BK O) as [i [I (_ & _ & _ & C1 & C2)]]. split; [rewrite B2; destruct (F2_in_r _ _ _ _ _ _ BK O) as [? [? (P & _)]]; exact P|]. split; [exact B3|].
    split. { destruct B5 as [x [X1 X2]]. cbn [refit si_bends inst_of] in X1. rewrite C1 in X1. cbn in X1. apply Permutation_sym, Permutation_nil in X1. subst x. inversion X2. reflexivity. }
    split. { destruct B6 as [x [X1 X2]]. cbn [refit si_ccs inst_of] in X1. rewrite C2 in X1. cbn in X1. apply Permutation_sym, Permutation_nil in X1. subst x. inversion X2. reflexivity. }
    split; auto. destruct B4 as [x [X1 X2]]. pose proof (NOTES o O) as NO. destruct (GL o O) as (ws & F & SQ & W).
    (* bring the permutation over *)
    destruct (Forall2_perm _ _ _ _ _ (Permutation_sym X1) _ NO) as (y & Y1 & Y2). exists y. split; [auto|].
    assert (ON : forall n, In n y -> exists w, on_grid us r n w /\ 0 <= pn_start w /\ 0 <= pn_end w).
    { intros n N. apply (Permutation_in _ Y1) in N. destruct (F2_in_l _ _ _ _ _ _ F N) as [w0 [IW G]]. exists w0. split; auto. pose proof (proj2 (W w0 IW)). pose proof (proj1 SQ w0 IW). lia. }
    assert (MV : forall j t t', 0 <= j -> (t == even_clock us r j)%Q -> moves (fun k => (inject_Z k * (60 / (q * inject_Z r)))%Q) (fun k => (inject_Z k * (inject_Z us / (1000000 * inject_Z r)))%Q) t t' -> (t' == t)%Q).
    { intros j t t' J E [k [[K0 K1] K2]]. specialize (K1 j J). rewrite <- !Qabsb_Qabs in K1. rewrite (Qabsb_comp _ (t - inject_Z k * c)) in K1 by (rewrite CK; reflexivity). rewrite (Qabsb_comp (t - inject_Z j * (60 / (q * inject_Z r))) (t - inject_Z j * c)) in K1 by (rewrite CK; reflexivity).
      rewrite EC in E. pose proof (tick_unique c t j k CP E K1). subst k. rewrite K2, E, CE. reflexivity. }
    clear - Y2 X2 ON MV. revert y Y2 ON. induction X2 as [|n n' x z (E1 & E2 & E3 & E4) X2 IH]; intros y Y2 ON; inversion Y2 as [|u ? y' ? (G1 & G2 & G3 & G4) Y2']; subst; constructor.
    + destruct (ON u (or_introl eq_refl)) as (w & (W1 & W2 & W3 & W4) & P1 & P2). split; [congruence|]. split; [congruence|]. split.
      * rewrite (MV (pn_start w) (sn_start n) (sn_start n')); auto. rewrite G3, W3. reflexivity.
      * rewrite (MV (pn_end w) (sn_end n) (sn_end n')); auto. rewrite G4, W4. reflexivity.
    + apply IH; auto. intros; apply ON; right; auto.
  - intros x X. destruct SK as [y [Y1 [Y2 _]]]. destruct (F2_in_r _ _ _ _ _ _ Y2 X) as [z [Z1 [-> _]]]. apply MK. apply (Permutation_in _ Y1); auto.
  - intros x X. destruct ST as [y [Y1 [Y2 _]]]. destruct (F2_in_r _ _ _ _ _ _ Y2 X) as [z [Z1 [-> _]]]. apply (Permutation_in _ Y1) in Z1. unfold with_default in Z1. destruct (forallb _ _); [|auto]. destruct Z1 as [<-|Z1]; auto. unfold pow_ok. cbn. split; [lia|exists 2; cbn; lia].
Qed.
End CORE.
