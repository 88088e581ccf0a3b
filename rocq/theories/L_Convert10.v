(** Saving an object with one tempo and reading the file again. *)
From Coq Require Import Lqa Lia Sorted Permutation.
From Verif Require Import PyBase L_Base M_SortedDict M_Note L_Note M_Events M_Seq S_Seq M_Seqs M_Ticks S_Ticks L_Ticks M_Load M_Write S_Write M_Meta L_Meta M_Song S_Song L_Song.
From Verif Require Import M_Reader S_Reader L_Reader L_Reader2 L_Reader3 L_Reader6 M_Pipe S_Pipe L_Pipe L_Pipe2 M_Tempi S_Tempi M_Convert S_Convert S_Convert2 L_Convert6 L_Convert7 L_Convert8 L_Convert9 P_Convert.
Open Scope Z_scope.

Lemma read_values : forall f so, S_Reader.file_ok f -> read f = Ok so ->
  Forall2 (fun i q => i_num (q_instr q) = ri_prog i /\ i_drum (q_instr q) = ri_drum i /\ exists k, survivors [] (ri_notes i) k /\ Forall2 same_note k (q_notes q)) (mf_insts f) (ms_values (so_ms so)).
Proof.
  intros f so F RD. destruct (read_spec f F) as [so1 [E1 [_ TR]]]. assert (so1 = so) by congruence. subst so1.
  destruct (read_tracks f F) as [so2 [E2 [_ [_ T]]]]. assert (so2 = so) by congruence. subst so2.
  unfold ms_values. rewrite (keys_enum _ _ _ TR). clear TR E1 E2 RD F.
  assert (G : forall l n, (forall j i, nth_error l j = Some i -> exists q, trk (so_ms so) (Z.of_nat (n + j)) = Some q /\ i_num (q_instr q) = ri_prog i /\ i_drum (q_instr q) = ri_drum i /\ exists k, survivors [] (ri_notes i) k /\ Forall2 same_note k (q_notes q)) ->
    Forall2 (fun i q => i_num (q_instr q) = ri_prog i /\ i_drum (q_instr q) = ri_drum i /\ exists k, survivors [] (ri_notes i) k /\ Forall2 same_note k (q_notes q)) l
      (flat_map (fun k => match trk (so_ms so) k with Some q => [q] | None => [] end) (map Z.of_nat (List.seq n (List.length l))))).
  { induction l as [|i l IH]; intros n H; cbn [List.length List.seq map flat_map]; [constructor|]. destruct (H 0%nat i eq_refl) as (q & Q & R). rewrite Nat.add_0_r in Q. rewrite Q. cbn [app]. constructor; auto.
    apply IH. intros j i' J. specialize (H (Datatypes.S j) i' J). rewrite Nat.add_succ_r in H. exact H. }
  apply (G (mf_insts f) 0%nat). intros j i J. destruct (T j i J) as (q & Q1 & Q2 & Q3 & _ & k & K1 & K2 & _). cbn [Nat.add]. exists q. eauto 8.
Qed.
Lemma survivors_det : forall seen l k, survivors seen l k -> forall k', survivors seen l k' -> k = k'.
Proof.
  intros seen l k H. induction H as [seen|seen n l k A B H IH|seen n l k A H IH]; intros k' H'; inversion H'; subst; auto.
  - f_equal. auto.
  - exfalso. match goal with X : ~ audible n \/ _ |- _ => destruct X as [X|[m (X1 & X2 & X3)]] end; auto. specialize (B m X1 X2). lra.
  - exfalso. destruct A as [X|[m (X1 & X2 & X3)]]; auto. match goal with X : forall m, In m _ -> _ |- _ => specialize (X m X1 X2) end. lra.
Qed.
Lemma survivors_all : forall l seen k, (forall m x, In m seen -> In x l -> (rn_end m <= rn_end x)%Q) -> StronglySorted (fun a b => (rn_end a <= rn_end b)%Q) l -> (forall n, In n l -> audible n) ->
  survivors seen l k -> k = l.
Proof.
  intros l seen k A B C H. apply survivors_ascending in H; auto. clear A B. induction H as [|x l k P H IH|x l k P H IH]; auto.
  - f_equal. apply IH. intros; apply C; right; auto.
  - exfalso. apply P, C. left; auto.
Qed.

Section SAVE.
Variables (fuel : nat) (srt : list Q -> list nat) (keynum : string -> res Z) (r us : Z) (file : list ftrack) (so : M_Reader.song) (a : option Q) (b : Q) (sg : M_Song.song) (file2 : list ftrack).
Hypothesis A : argsorts srt.
Hypothesis Hr : 0 < r.
Hypothesis Us : 0 < us.
Hypothesis MF : midi_file keynum file.
Hypothesis AM : at_most 128 file.
Hypothesis OT : one_tempo us file.
Hypothesis RD : read_file keynum 9 r file = Ok so.
Hypothesis NE : sounding so <> [].
Hypothesis LA : match a with Some v => (v <= 0)%Q | None => True end.
Hypothesis TB : (so_total so <= b)%Q.
Hypothesis H : to_pretty_midi fuel srt so a (Some b) = Ok (Some sg).
Hypothesis KK : knows_keys keynum.
Hypothesis SE : serialize 9 sg [] = Ok file2.
Hypothesis SH : short file2.

Lemma saved : exists so2 s s2, read_file keynum 9 r file2 = Ok so2 /\ Forall2 same_notes (sounding so) (ms_values (so_ms so2)) /\
  so_tempos so = [s] /\ so_tempos so2 = [s2] /\ (g_data s2 == g_data s)%Q /\ (g_data s == 60000000 / inject_Z us)%Q.
Proof.
  destruct (file_grid keynum 9 r us file so Hr Us MF AM OT RD) as (f & s & FO & RE & ER & ES & S0 & QS & GR).
  pose proof (read_values f so FO RE) as RV.
  assert (AU : has_audible f).
  { unfold sounding in NE. destruct (filter _ _) as [|q w] eqn:EQ; [congruence|]. assert (I : In q (q :: w)) by (left; auto). rewrite <- EQ in I. apply filter_In in I as [I N]. destruct (q_notes q) as [|n ns] eqn:QN; [discriminate|].
    destruct (F2_in_r _ _ _ _ _ _ RV I) as [i [II (_ & _ & k & SV & SN)]]. rewrite QN in SN. inversion SN; subst. exists i, x. split; auto. apply (survivors_sub _ _ _ SV). left; auto. }
  destruct (core fuel srt keynum f so s a b sg us file2 A FO RE AU ES ltac:(lra) Us QS LA TB H KK SE SH) with (r := r) as (l & sg' & BK & LS & SI & KO & TO & lt & PL & LB); auto.
  { intros; rewrite ER; eauto. }
  assert (TE : tempo_events [(0, us)]) by (split; [repeat constructor|intros e [<-|[]]; cbn; lia]).
  destruct (one_change r us [(0, us)] lt (sg_pm sg') Hr Us TE LB) as (t & q & GT & T0 & Q0); auto. { intros e [<-|[]]. reflexivity. }
  assert (PR : p_res (sg_pm sg') = r). { destruct (pm_load_ok r [(0, us)] lt Hr TE ltac:(lia) ltac:(lia)) as (p0 & m0 & E0 & _ & _ & _ & R0). congruence. }
  set (f2 := reader_file sg' [(t, q)]).
  assert (QP : (0 < q)%Q) by (rewrite Q0; pose proof (inject_pos' us Us); apply Qlt_shift_div_l; lra).
  (* the notes of the object are proper notes *)
  assert (OK : forall o n, In o l -> In n (ri_notes o) -> note_ok n /\ audible n).
  { intros o n O N. destruct (F2_in_r _ _ _ _ _ _ BK O) as [i [I (_ & _ & SV & _)]]. destruct (survivors_sub _ _ _ SV n N) as [N1 N2]. split; auto.
    destruct FO as (_ & _ & _ & _ & FI & _). rewrite Forall_forall in FI. destruct (FI i I) as (_ & X & _). rewrite Forall_forall in X. auto. }
  assert (SUB : forall o, In o (filter nonempty l) -> In o l) by (intros o O; apply filter_In in O; apply O).
  set (rn := fun n => mkRN (sn_vel n) (sn_pitch n) (sn_start n) (sn_end n)).
  assert (NOTE : forall o i', In o l -> (exists w, Permutation w (ri_notes o) /\ Forall2 equal_note w (si_notes i')) -> forall n', In n' (si_notes i') -> note_ok (rn n') /\ audible (rn n')).
  { intros o i' O (w & W1 & W2) n' N'. destruct (F2_in_r _ _ _ _ _ _ W2 N') as [n [N (E1 & E2 & E3 & E4)]]. apply (Permutation_in _ W1) in N. destruct (OK o n O N) as [(P1 & P2 & P3 & P4) AUD].
    split; [unfold note_ok, rn; cbn; rewrite E1, E2, E3, E4; auto|]. apply audible_lasting in AUD; auto. apply audible_lasting; unfold rn; cbn; rewrite ?E3, ?E4; auto. }
  assert (FO2 : S_Reader.file_ok f2).
  { unfold S_Reader.file_ok, f2, reader_file. cbn. split; [lia|]. split; [apply Forall_forall; auto|]. split; [constructor; auto|]. split; [apply Forall_forall; auto|]. split.
    - apply Forall_forall. intros x X. apply in_map_iff in X as [i' [<- X]]. destruct (F2_in_r _ _ _ _ _ _ SI X) as [o [O (P1 & P2 & P3 & P4 & P5 & P6)]]. unfold inst_ok, reader_inst. cbn. rewrite P1, P3, P4. cbn.
      split; [lia|]. split; [|split; constructor]. apply Forall_forall. intros n N. apply in_map_iff in N as [n' [<- N']]. apply (NOTE o i'); auto.
    - rewrite map_length, <- (F2_len _ _ _ _ _ SI). destruct FO as (_ & _ & _ & _ & _ & LN). rewrite (F2_len _ _ _ _ _ BK) in LN. clear - LN. revert LN. generalize 128%nat. induction l as [|o l IH]; cbn; intros n L; auto. destruct (nonempty o); cbn; [destruct n; [lia|]; apply le_n_S, IH; lia|apply IH; lia]. }
  destruct (read_tracks f2 FO2) as (so2 & RD2 & _). exists so2, s, (mkSig t 1 q). split.
  { unfold read_file. rewrite LS. cbn [bind]. rewrite GT. cbn [bind]. exact RD2. }
  split; [|split; auto; split; [apply (read_one f2); auto|cbn [g_data]; split; [rewrite Q0, QS; reflexivity|auto]]].
  pose proof (read_values f2 so2 FO2 RD2) as RV2.
  (* the tracks of the object and the instruments of [l] *)
  assert (T1 : Forall2 (fun o q => ri_drum o = i_drum (q_instr q) /\ Forall2 same_note (ri_notes o) (q_notes q)) l (ms_values (so_ms so))).
  { clear - BK RV. revert RV. generalize (ms_values (so_ms so)). induction BK as [|i o is l (P1 & P2 & P3 & _) BK IH]; intros qs RV; inversion RV as [|? q ? qs' (Q1 & Q2 & k & Q3 & Q4) RV']; subst; constructor; auto.
    split; [congruence|]. rewrite (survivors_det _ _ _ P3 _ Q3). exact Q4. }
  assert (T2 : Forall2 (fun o q => ri_drum o = i_drum (q_instr q) /\ Forall2 same_note (ri_notes o) (q_notes q)) (filter nonempty l) (sounding so)).
  { clear - T1. unfold sounding. induction T1 as [|o q l qs [P1 P2] T1 IH]; cbn [filter]; [constructor|]. 
    assert (X : nonempty o = match q_notes q with [] => false | _ => true end) by (unfold nonempty; destruct (ri_notes o); destruct (q_notes q); inversion P2; reflexivity). rewrite X. destruct (match q_notes q with [] => false | _ => true end); auto. }
  assert (T3 : Forall2 (fun i' q => i_num (q_instr q) = si_prog i' /\ i_drum (q_instr q) = si_drum i' /\ exists k, survivors [] (map rn (si_notes i')) k /\ Forall2 same_note k (q_notes q)) (sg_insts sg') (ms_values (so_ms so2))).
  { clear - RV2. unfold f2, reader_file in RV2. cbn [mf_insts] in RV2. revert RV2. generalize (ms_values (so_ms so2)). induction (sg_insts sg') as [|i is IH]; intros qs RV; cbn [map] in RV; inversion RV; subst; constructor; auto. }
  clear - T2 T3 SI NOTE SUB. revert SUB T2 T3. generalize (sounding so) (ms_values (so_ms so2)). induction SI as [|o i' lo li (P1 & P2 & P3 & P4 & P5 & w & W1 & W2) SI IH]; intros qs qs2 SUB T2 T3; inversion T2 as [|? q ? qs' [A1 A2] T2']; inversion T3 as [|? q2 ? qs2' (B1 & B2 & k & B3 & B4) T3']; subst; constructor; [|apply IH; auto; intros; apply SUB; right; auto].
  assert (O : In o l) by (apply SUB; left; auto). split; [congruence|]. split; [congruence|].
  assert (k = map rn (si_notes i')).
  { eapply survivors_all; [| | |exact B3]; [intros ? ? []| |].
    - clear - P5. induction P5 as [|n ns S1 IH F]; cbn; constructor; auto. rewrite Forall_forall in *. intros x X. apply in_map_iff in X as [y [<- Y]]. cbn. auto.
    - intros n N. apply in_map_iff in N as [n' [<- N']]. apply (NOTE o i'); eauto. }
  subst k. destruct (Forall2_perm _ _ (fun q n => same_note n q) _ _ (Permutation_sym W1) (q_notes q)) as (y & Y1 & Y2); [clear - A2; induction A2; constructor; auto|]. exists y. split; [auto|].
  clear - Y2 W2 B4. revert y Y2 B4. generalize (q_notes q2). induction W2 as [|n n' w ns (E1 & E2 & E3 & E4) W2 IH]; intros ms y Y2 B4; cbn [map] in B4; inversion Y2 as [|z ? y' ? (G1 & G2 & G3 & G4)]; inversion B4 as [|? m ? ms' (F1 & F2 & F3 & F4)]; subst; constructor; auto.
  unfold alike. cbn in *. rewrite F1, F2, F3, F4, G1, G2, G3, G4. auto.
Qed.
End SAVE.
