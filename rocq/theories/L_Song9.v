(** When a piece can be saved; MidiFile objects used twice. *)
From Coq Require Import Sorted Permutation Lia Lqa Qabs Qround.
From Verif Require Import PyBase L_Base M_SortedDict M_Note L_Note L_Note2 M_Ticks S_Ticks L_Ticks M_Load S_Load M_Write S_Write M_Meta S_Meta L_Meta M_Song S_Song L_Song L_Song2 L_Song3 L_Song4 L_Song5.
Open Scope Z_scope.

Lemma mapM_err : forall A B (g : A -> res B) l a, In a l -> (forall b, g a <> Ok b) -> forall m, mapM g l <> Ok m.
Proof. intros A B g l a I H m E. apply mapM_inv in E. destruct (F2_in_l _ _ _ _ _ _ E I) as [b [_ K]]. apply (H b K). Qed.
Lemma pow2_fits : forall d, (1 <=? d) && (d <=? 2 ^ 255) && (2 ^ Z.log2 d =? d) = true <-> exists e, 0 <= e <= 255 /\ d = 2 ^ e.
Proof.
  intros d. rewrite !andb_true_iff. split.
  - intros [[A B] C]. apply Z.leb_le in A, B. apply Z.eqb_eq in C. exists (Z.log2 d). split; [|auto]. split; [apply Z.log2_nonneg|].
    replace 255 with (Z.log2 (2 ^ 255)) by (apply Z.log2_pow2; lia). apply Z.log2_le_mono. auto.
  - intros [e [E ->]]. rewrite Z.log2_pow2 by lia. rewrite Z.eqb_refl. repeat split; auto.
    + apply Z.leb_le. pose proof (Z.pow_pos_nonneg 2 e). lia.
    + apply Z.leb_le. apply Z.pow_le_mono_r; lia.
Qed.
Lemma key_in : forall k, (exists s, py_nth key_names k = Ok s) <-> -24 <= k < 24.
Proof.
  intros k. unfold py_nth. cbv zeta. change (Z.of_nat (List.length key_names)) with 24. split.
  - intros [s H]. destruct (Z.ltb_spec k 0).
    + destruct (Z.ltb_spec (k + 24) 0); [discriminate|]. lia.
    + destruct (Z.ltb_spec k 0); [lia|]. destruct (nth_error key_names (Z.to_nat k)) eqn:E; [|discriminate].
      assert (Z.to_nat k < 24)%nat by (change 24%nat with (List.length key_names); apply nth_error_Some; congruence). lia.
  - intros H. set (j := if k <? 0 then k + 24 else k). assert (J : 0 <= j < 24) by (subst j; destruct (Z.ltb_spec k 0); lia).
    destruct (Z.ltb_spec j 0); [lia|]. destruct (nth_error key_names (Z.to_nat j)) eqn:E; [eauto|]. apply nth_error_None in E. change (List.length key_names) with 24%nat in E. lia.
Qed.
Section SAVE.
Variables (sg : song) (dc : Z).
Let p := sg_pm sg.
Hypothesis Near : forall t, exists k, time_to_tick p t = Ok k.
Hypothesis NEs : p_scales p <> [].
Lemma to_ticks_total : forall i, exists w, to_ticks p i = Ok w.
Proof.
  intros i. unfold to_ticks.
  destruct (mapM_exists _ _ (fun n => bind (time_to_tick p (sn_start n)) (fun s => bind (time_to_tick p (sn_end n)) (fun e => Ok (mkP (sn_vel n) (sn_pitch n) s e)))) (si_notes i)) as [ns ->].
  { intros n _. destruct (Near (sn_start n)) as [a ->]. destruct (Near (sn_end n)) as [b ->]. cbn. eauto. }
  cbn [bind]. destruct (mapM_exists _ _ (fun b => bind (time_to_tick p (fst b)) (fun k => Ok (k, snd b))) (si_bends i)) as [bs ->].
  { intros n _. destruct (Near (fst n)) as [a ->]. cbn. eauto. }
  cbn [bind]. destruct (mapM_exists _ _ (fun c => bind (time_to_tick p (fst (fst c))) (fun k => Ok (k, snd (fst c), snd c))) (si_ccs i)) as [cs ->].
  { intros n _. destruct (Near (fst (fst n))) as [a ->]. cbn. eauto. }
  cbn. eauto.
Qed.
Lemma fits_ticked : forall i w, ticked sg i w -> (messages_fit w = true <->
  bits7 (si_prog i) /\ (forall n, In n (si_notes i) -> bits7 (sn_pitch n) /\ bits7 (sn_vel n)) /\
     (forall b, In b (si_bends i) -> - 2 ^ 13 <= snd b < 2 ^ 13) /\ (forall c, In c (si_ccs i) -> bits7 (snd (fst c)) /\ bits7 (snd c))).
Proof.
  intros i w (T1 & T2 & T3 & T4 & T5 & T6). change (2 ^ 13) with 8192. unfold messages_fit, bits7. rewrite !andb_true_iff, !forallb_forall. unfold byte7. split.
  - intros [[[A B] C] D]. rewrite andb_true_iff in A. split; [lia|]. split; [|split].
    + intros n N. destruct (F2_in_l _ _ _ _ _ _ T4 N) as [x [X (_ & _ & E1 & E2)]]. specialize (B x X). rewrite !andb_true_iff in B. lia.
    + intros n N. destruct (F2_in_l _ _ _ _ _ _ T5 N) as [x [X (_ & E1)]]. specialize (C x X). rewrite !andb_true_iff in C. lia.
    + intros n N. destruct (F2_in_l _ _ _ _ _ _ T6 N) as [x [X (_ & E1 & E2)]]. specialize (D x X). rewrite !andb_true_iff in D. lia.
  - intros [A [B [C D]]]. split; [split; [split|]|].
    + rewrite andb_true_iff. lia.
    + intros x X. destruct (F2_in_r _ _ _ _ _ _ T4 X) as [n [N (_ & _ & E1 & E2)]]. specialize (B n N). rewrite !andb_true_iff. lia.
    + intros x X. destruct (F2_in_r _ _ _ _ _ _ T5 X) as [n [N (_ & E1)]]. specialize (C n N). rewrite !andb_true_iff. lia.
    + intros x X. destruct (F2_in_r _ _ _ _ _ _ T6 X) as [n [N (_ & E1 & E2)]]. specialize (D n N). rewrite !andb_true_iff. lia.
Qed.
Lemma save_iff : forall file, (exists out, serialize dc sg file = Ok out) <-> writable dc sg.
Proof.
  intros file. unfold writable, serialize. fold p. split.
  - intros [out H]. destruct (timing_track sg) as [t0|] eqn:TT; [|discriminate]. cbn [bind] in H.
    destruct ((0 <=? dc) && (dc <? 16)) eqn:DC; [|discriminate]. destruct (mapM (to_ticks p) (sg_insts sg)) as [ws|] eqn:MW; [|discriminate]. cbn [bind] in H.
    destruct (forallb messages_fit ws) eqn:MF; [|discriminate].
    unfold timing_track in TT. cbv zeta in TT. fold p in TT.
    destruct (tempo_messages p) as [tempi|] eqn:E1; [|discriminate]. destruct (signature_messages p _) as [sigs|] eqn:E2; [|discriminate].
    destruct (key_messages p _) as [keys|] eqn:E3; [|discriminate]. apply mapM_inv in E1, E2, E3, MW. change (2 ^ 24) with 16777216.
    split; [lia|]. split; [|split; [|split]].
    + intros e K. destruct (F2_in_l _ _ _ _ _ _ E1 K) as [b [_ B]]. unfold tempo_fits in B. destruct ((0 <=? snd e) && (snd e <=? 16777215)) eqn:C; [lia|discriminate].
    + intros e K. destruct (F2_in_l _ _ _ _ _ _ E2 K) as [b [_ B]]. destruct (time_to_tick p (snd e)); [|discriminate]. cbn [bind] in B. destruct (signature_fits _ _) eqn:C; [|discriminate].
      unfold signature_fits in C. rewrite <- !andb_assoc in C. rewrite (andb_assoc (0 <=? _)) in C. apply andb_true_iff in C as [C D]. rewrite andb_assoc in D. apply pow2_fits in D. split; [lia|auto].
    + intros e K. destruct (F2_in_l _ _ _ _ _ _ E3 K) as [b [_ B]]. apply key_in. destruct (time_to_tick p (snd e)); [|discriminate]. cbn [bind] in B. destruct (py_nth key_names (fst e)) eqn:N; [eauto|discriminate].
    + intros i I. destruct (F2_in_l _ _ _ _ _ _ MW I) as [w [W TW]]. rewrite forallb_forall in MF. apply (fits_ticked i w); [apply to_ticks_inv; auto|auto].
  - intros (DC & TF & SF & KF & IF). change (2 ^ 24) with 16777216 in TF.
    assert (TT : exists t0, timing_track sg = Ok t0).
    { unfold timing_track. cbv zeta. fold p. unfold tempo_messages, signature_messages, key_messages, lyric_messages.
      destruct (mapM_exists _ _ (fun e => if tempo_fits (snd e) then Ok (fst e, MTempo (snd e)) else Err ValueError) (write_tempo (p_res p) (p_scales p))) as [tempi E1].
      { intros e K. specialize (TF e K). unfold tempo_fits. destruct ((0 <=? snd e) && (snd e <=? 16777215)) eqn:C; [eauto|lia]. }
      rewrite E1. cbn [bind].
      match goal with |- context [mapM ?g (md_times (sg_meta sg))] => destruct (mapM_exists _ _ g (md_times (sg_meta sg))) as [sigs ->] end.
      { intros e K. destruct (Near (snd e)) as [k ->]. cbn [bind]. destruct (SF e K) as [A B]. apply pow2_fits in B.
        assert (SFT : signature_fits (fst (fst e)) (snd (fst e)) = true).
        { unfold signature_fits. rewrite !andb_true_iff in *. destruct B as [[B1 B2] B3]. destruct A as [A1 A2]. apply Z.leb_le in A1, A2. tauto. }
        rewrite SFT. eauto. }
      cbn [bind]. match goal with |- context [mapM ?g (md_keys (sg_meta sg))] => destruct (mapM_exists _ _ g (md_keys (sg_meta sg))) as [keys ->] end.
      { intros e K. destruct (Near (snd e)) as [k ->]. cbn [bind]. destruct (proj2 (key_in (fst e)) (KF e K)) as [s ->]. cbn. eauto. }
      cbn [bind]. match goal with |- context [mapM ?g (md_lyrics (sg_meta sg))] => destruct (mapM_exists _ _ g (md_lyrics (sg_meta sg))) as [lyrics ->] end.
      { intros e K. destruct (Near (snd e)) as [k ->]. cbn. eauto. }
      cbn [bind]. match goal with |- context [rev ?x] => destruct (rev x) as [|e0 re] eqn:R end; [|eauto].
      exfalso. apply (f_equal (@rev _)) in R. rewrite rev_involutive in R. cbn [rev] in R.
      match type of R with py_sort ?lt ?l = [] => pose proof (py_sort_perm lt l) as PP end. rewrite R in PP. apply Permutation_sym, Permutation_nil in PP.
      apply app_eq_nil in PP as [_ PP]. apply app_eq_nil in PP as [PP _]. subst tempi. apply mapM_inv in E1. inversion E1 as [EQ|].
      unfold write_tempo in EQ. symmetry in EQ. apply map_eq_nil in EQ. auto. }
    destruct TT as [t0 ->]. cbn [bind]. destruct ((0 <=? dc) && (dc <? 16)) eqn:C; [|lia].
    destruct (mapM_exists _ _ (to_ticks p) (sg_insts sg)) as [ws E]; [intros; apply to_ticks_total|]. rewrite E. cbn [bind].
    assert (MF : forallb messages_fit ws = true). { apply forallb_forall. intros w W. apply mapM_inv in E. destruct (F2_in_r _ _ _ _ _ _ E W) as [i [I T]]. apply (fits_ticked i w); [apply to_ticks_inv; auto|auto]. }
    rewrite MF. eauto.
Qed.
End SAVE.

(** ** MidiFile objects *)
Lemma into_object : forall dc sg file, serialize dc sg file = bind (serialize dc sg []) (fun out => Ok (map (f_delta 0) file ++ out)).
Proof.
  intros. unfold serialize. destruct (timing_track sg) as [t0|]; [|reflexivity]. cbn [bind]. destruct (_ && _); [|reflexivity].
  destruct (mapM _ _) as [ws|]; [|reflexivity]. cbn [bind]. destruct (forallb _ _); [|reflexivity]. cbn [bind app]. rewrite map_app. reflexivity.
Qed.
Lemma into_loaded : forall dc sg file, serialize dc sg (file_after_load file) = bind (serialize dc sg []) (fun out => Ok (file ++ out)).
Proof.
  intros. rewrite into_object. unfold file_after_load. rewrite map_map. replace (map (fun x => f_delta 0 (f_abs 0 x)) file) with file; auto.
  rewrite <- (map_id file) at 1. apply map_ext. intros. rewrite f_delta_abs. reflexivity.
Qed.
Lemma abz_cons : forall x l, all_but_last_zero (x :: l) <-> (l <> [] -> x = 0) /\ all_but_last_zero l.
Proof.
  intros x l. split.
  - intros H. split; [intros N; apply (H [] x l); auto|]. intros a y b E NB. apply (H (x :: a) y b); [cbn; congruence|auto].
  - intros [A B] a y b E NB. destruct a as [|z a]; cbn in E; injection E as -> E; [subst; auto|]. eapply B; eauto.
Qed.
Lemma abs_fix : forall t k, f_abs k t = t <-> match t with [] => True | _ => k = 0 /\ all_but_last_zero (map fst t) end.
Proof.
  induction t as [|[d m] t IH]; intros k; cbn [f_abs]; [tauto|]. split.
  - intros E. injection E as E1 E2. assert (K : k = 0) by lia. subst k. split; auto. apply IH in E2. cbn [map fst]. apply abz_cons.
    destruct t as [|e t]; [split; [intros X; destruct (X eq_refl)|intros [|? ?] ? ? X; discriminate]|]. destruct E2 as [E2 E3]. split; [intros; lia|auto].
  - intros [-> H]. cbn [map fst] in H. apply abz_cons in H as [H1 H2]. f_equal; [f_equal; lia|]. apply IH. destruct t as [|e t]; auto. split; auto. rewrite H1; [lia|discriminate].
Qed.
Lemma delta_fix : forall t k, f_delta k t = t <-> match t with [] => True | _ => k = 0 /\ all_but_last_zero (map fst t) end.
Proof.
  induction t as [|[d m] t IH]; intros k; cbn [f_delta]; [tauto|]. split.
  - intros E. injection E as E1 E2. assert (K : k = 0) by lia. subst k. split; auto. apply IH in E2. cbn [map fst]. apply abz_cons.
    destruct t as [|e t]; [split; [intros X; destruct (X eq_refl)|intros [|? ?] ? ? X; discriminate]|]. destruct E2 as [E2 E3]. split; [intros; lia|auto].
  - intros [-> H]. cbn [map fst] in H. apply abz_cons in H as [H1 H2]. f_equal; [f_equal; lia|]. apply IH. destruct t as [|e t]; auto. split; auto. rewrite H1; [lia|discriminate].
Qed.
Lemma map_fix : forall A (g : A -> A) l, map g l = l <-> forall x, In x l -> g x = x.
Proof.
  induction l as [|x l IH]; cbn; [split; [intros _ ? []|auto]|]. split.
  - intros E. injection E as E1 E2. intros y [<-|Y]; auto. apply IH; auto.
  - intros H. f_equal; [apply H; auto|apply IH; intros; apply H; auto].
Qed.
Lemma object_again : forall file, file_after_load file = file <-> forall t, In t file -> all_but_last_zero (map fst t).
Proof.
  intros file. unfold file_after_load. rewrite map_fix. split; intros H t T; specialize (H t T).
  - apply abs_fix in H. destruct t; [intros [|? ?] ? ? X; discriminate|tauto].
  - apply abs_fix. destruct t; auto.
Qed.
Lemma object_saved : forall file, map (f_delta 0) file = file <-> forall t, In t file -> all_but_last_zero (map fst t).
Proof.
  intros file. rewrite map_fix. split; intros H t T; specialize (H t T).
  - apply delta_fix in H. destruct t; [intros [|? ?] ? ? X; discriminate|tauto].
  - apply delta_fix. destruct t; auto.
Qed.
