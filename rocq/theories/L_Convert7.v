(** The piece made of an object with one tempo. *)
From Coq Require Import Lqa Lia Sorted Permutation Qabs.
From Verif Require Import PyBase L_Base M_Beats L_Beats5 M_Adjust S_Adjust L_Adjust L_Adjust2 L_Adjust3 L_Adjust4 M_SortedDict M_Note L_Note M_Events M_Seq S_Seq L_Seq M_Seqs M_Ticks S_Ticks L_Ticks M_Load M_Write M_Meta L_Meta M_Song S_Song M_Reader S_Reader L_Reader L_Reader2 L_Reader3 L_Reader6 M_Pipe M_Tempi S_Tempi L_Tempi L_Tempi2 M_Convert S_Convert L_Convert L_Convert2 L_Convert3 L_Convert4 L_Convert5 L_Convert6 P_Convert L_Song2.
Open Scope Z_scope.

Lemma log_pm : forall srt sg sg', convert_log srt sg = Ok sg' -> sg_pm sg' = pm_run (sg_pm sg) [PmTempi].
Proof.
  intros srt sg sg' H. unfold convert_log, song_end in H. unfold pm_run. cbn [fold_left pm_step]. destruct (get_tempo_changes (sg_pm sg)) as [[tempi|e] p]; cbn [bind] in H; [|discriminate].
  destruct (estimate_tempo srt _) as [q|e]; cbn [bind] in H; [|discriminate]. apply Ok_inj in H. subst sg'. reflexivity.
Qed.
(** What a list of events becomes: only times change. *)
Lemma adjust_from : forall A time (set : A -> Q -> A) m l x, In x (adjust_list time set m l) -> exists y t, In y l /\ x = set y t.
Proof.
  intros A time set m l x H. unfold adjust_list in H. set (w := map _ _) in H. assert (X : In x w).
  { unfold keep_in_range in H. apply in_app_iff in H as [H|H]; [|apply filter_In in H; apply H]. destruct (filter _ w) as [|a r] eqn:E; [destruct H|]. destruct H as [<-|[]].
    assert (I : In (last r a) (a :: r)). { destruct r as [|b r]; [left; auto|]. right. rewrite (app_removelast_last a (l := b :: r)) at 2 by discriminate. apply in_app_iff. right. left. reflexivity. }
    rewrite <- E in I. apply filter_In in I. apply I. }
  unfold w in X. apply in_map_iff in X as [y [<- Y]]. apply (Permutation_in _ (Permutation_sym (py_sort_perm _ _))) in Y. eauto.
Qed.

Lemma sigs_from : forall m downs l x, In x (adjust_sigs m downs l) -> (ts_num x, ts_den x) = (4, 4) \/ exists y, In y l /\ ts_num x = ts_num y /\ ts_den x = ts_den y.
Proof.
  intros m downs l x H. unfold adjust_sigs in H.
  assert (L1 : forall y, In y (adjust_list ts_time set_ts m l) -> exists z, In z l /\ ts_num y = ts_num z /\ ts_den y = ts_den z).
  { intros y Y. apply adjust_from in Y as (z & t & Z1 & ->). exists z. split; auto. }
  destruct (map _ _) as [|d ds]; [right; auto|]. destruct (existsb _ _).
  - apply filter_In in H as [H _]. right.
    assert (G : forall p w y, In y (move_last p d w) -> exists z, In z w /\ ts_num y = ts_num z /\ ts_den y = ts_den z).
    { intros p. induction w as [|z w IH]; intros y Y; cbn [move_last] in Y; [destruct Y|]. destruct (existsb p w); [|destruct (p z)].
      - destruct Y as [<-|Y]; [exists z; split; [left|]; auto|]. destruct (IH y Y) as [u [U1 U2]]. exists u. split; [right|]; auto.
      - destruct Y as [<-|Y]; [exists z; split; [left|]; auto|]. exists y. split; [right|]; auto.
      - destruct Y as [<-|Y]; [exists z; split; [left|]; auto|]. destruct (IH y Y) as [u [U1 U2]]. exists u. split; [right|]; auto. }
    destruct (G _ _ _ H) as [z [Z1 [Z2 Z3]]]. destruct (L1 z Z1) as [u [U1 [U2 U3]]]. exists u. split; auto. split; congruence.
  - destruct H as [<-|H]; [left; reflexivity|]. right. auto.
Qed.
(** The signatures of the piece are proper. *)
Lemma mapM_in : forall A B (g : A -> res B) l l', mapM g l = Ok l' -> forall y, In y l' -> exists x, In x l /\ g x = Ok y.
Proof.
  intros A B g l. induction l as [|a l IH]; intros l' H y Y; cbn in H; [apply Ok_inj in H; subst; destruct Y|].
  destruct (g a) as [b|x] eqn:G; cbn in H; [|discriminate]. destruct (mapM g l) as [w|x]; cbn in H; [|discriminate]. apply Ok_inj in H. subst l'. destruct Y as [<-|Y]; [exists a; split; [left|]; auto|]. destruct (IH w eq_refl y Y) as [x [X1 X2]]. exists x. split; [right|]; auto.
Qed.
Lemma raw_sigs : forall f so b raw, S_Reader.file_ok f -> read f = Ok so -> convert_raw so (Some b) = Ok raw ->
  (forall x, In x (md_keys (sg_meta raw)) -> 0 <= fst x < 24) /\ (forall x, In x (md_times (sg_meta raw)) -> pow_ok (fst x)) /\ md_lyrics (sg_meta raw) = [].
Proof.
  intros f so b raw FO RD RW. destruct (raw_parts so (Some b) raw RW) as (t & p0 & l & _ & _ & MT & MK & ML & _). split; [|split; auto].
  - intros x X. unfold put_keys in MK. destruct (mapM_in _ _ _ _ _ MK x X) as [y [_ E]]. cbv zeta in E. match type of E with (if ?c && _ && _ then _ else _) = _ => idtac | _ => idtac end.
    destruct (_ && _) eqn:C in E; [|discriminate]. apply Ok_inj in E. subst x. cbn [fst]. apply andb_true_iff in C as [C _]. apply andb_true_iff in C as [C1 C2]. apply Z.leb_le in C1. apply Z.ltb_lt in C2. auto.
  - intros x X. unfold put_times in MT. destruct (mapM_in _ _ _ _ _ MT x X) as [y [Y E]]. destruct (_ && _) in E; [|discriminate]. apply Ok_inj in E. subst x. cbn [fst].
    apply filter_In in Y as [Y _]. destruct FO as (F1 & F2 & F3 & F4 & _). unfold read in RD.
    destruct (read_keys (sig_default (0, false)) (mf_keys f)) as [ks|]; cbn [bind] in RD; [|discriminate]. destruct (read_tempos _ _ _) as [ts|]; cbn [bind] in RD; [|discriminate].
    destruct (read_times_ok (mf_times f) (sig_default (4, 4))) as [tm [M [M1 M2]]]; [discriminate| |auto|]. { intros z [<-|[]]. unfold pow_ok. cbn. split; [lia|exists 2; cbn; lia]. }
    rewrite M in RD. cbn [bind] in RD. destruct (read_notes _ _ _) as [[u|] [s1 tot]]; [|discriminate]. destruct (read_bends _ _ _) as [[u2|] s2]; [|discriminate]. destruct (read_ccs _ _ _) as [[u3|] s3]; [|discriminate]. apply Ok_inj in RD. subst so. cbn [so_times] in Y. apply (Permutation_in _ (Permutation_sym (py_sort_perm _ _))) in Y. auto.
Qed.

Lemma one_piece : forall fuel srt f so s a b sg, argsorts srt -> S_Reader.file_ok f -> read f = Ok so -> has_audible f -> so_tempos so = [s] -> (g_time s <= 0)%Q -> (0 < g_data s)%Q ->
  match a with Some v => (v <= 0)%Q | None => True end -> to_pretty_midi fuel srt so a (Some b) = Ok (Some sg) ->
  let c := (60 / (g_data s * inject_Z (mf_res f)))%Q in
  exists raw e lo hi k q p0, convert_raw so (Some b) = Ok raw /\ (e == so_total so)%Q /\ (lo == 0)%Q /\ (0 <= lo)%Q /\ (lo < hi)%Q /\ (hi == Qminb b e)%Q /\
  0 < k /\ (forall j, 0 <= j -> (Qabsb (so_total so - inject_Z k * c) <= Qabsb (so_total so - inject_Z j * c))%Q) /\
  (q == g_data s * (inject_Z k * c / hi))%Q /\ pm_new (mf_res f) q = Ok p0 /\ sg_pm sg = pm_run p0 [PmTime 1; PmTempi] /\
  sg_insts sg = map (refit [(0, lo); (e, hi)]%Q) (sg_insts raw) /\
  (forall x, In x (md_keys (sg_meta sg)) -> 0 <= fst x < 24) /\ (forall x, In x (md_times (sg_meta sg)) -> pow_ok (fst x)) /\ md_lyrics (sg_meta sg) = [].
Proof.
  intros fuel srt f so s a b sg A FO RD AU ES S0 QP LA H c.
  destruct (stages fuel srt so a b sg A H) as (raw & sg1 & RW & FT & LG & _ & IS & MS).
  destruct (raw_one f so b raw FO RD AU RW s ES S0 QP) as (c0 & c1 & EP & V0 & V1). assert (Hr : 0 < mf_res f) by (apply FO). assert (R0 : (0 < inject_Z (mf_res f))%Q) by (apply inject_pos'; auto).
  assert (CP : (0 < c)%Q) by (unfold c; apply Qlt_shift_div_l; [apply Qmult_lt_0_compat; auto|lra]). fold c in V0, V1.
  destruct (fit_one fuel raw a b sg1 (mf_res f) c0 c1 Hr ltac:(lra) ltac:(lra) EP FT (raw_pos f so b raw FO RD AU RW)) as (E & lo & hi & k & downs & L0 & L1 & L2 & L3 & L4 & K0 & K1 & I1 & I2 & I3 & I4 & PM).
  set (tempi := [(0, 60 / (c0 * inject_Z (mf_res f))); (0, 60 / (c1 * inject_Z (mf_res f)))]%Q) in *. set (e := piece_end tempi (tsigs (sg_meta raw)) (other_times raw)) in *.
  assert (ET : (e == so_total so)%Q). { apply (piece_total f so b raw FO RD AU RW). intros o [<-|[<-|[]]]; reflexivity. }
  assert (LO : (lo == 0)%Q). { rewrite L3. destruct a as [v|]; [destruct (Qmaxb_spec 0 v) as [[? ->]|[? ->]]; lra|destruct (Qmaxb_spec 0 0) as [[? ->]|[? ->]]; lra]. }
  destruct (PM LO) as (q & p0 & QE & PN & PR). exists raw, e, lo, hi, k, q, p0. split; auto. split; auto. split; auto. split; auto. split; auto. split; auto. split; auto. split.
  { intros j J. specialize (K1 j J). rewrite (Qabsb_comp _ (so_total so - inject_Z k * c)) in K1 by (rewrite ET, V1; lra). rewrite (Qabsb_comp (e - inject_Z j * c1) (so_total so - inject_Z j * c)) in K1 by (rewrite ET, V1; lra). auto. }
  split. { rewrite QE, LO, V1. unfold c. field. repeat match goal with |- _ /\ _ => split end; lra. }
  split; auto. split; [rewrite (log_pm _ _ _ LG), PR; reflexivity|]. split; [congruence|].
  destruct (raw_sigs f so b raw FO RD RW) as (S1 & S2 & S3). rewrite MS. split; [|split].
  - intros x X. rewrite I2 in X. apply adjust_from in X as (y & t & Y & ->). cbn. auto.
  - intros x X. rewrite I3 in X. apply in_map_iff in X as [y [<- Y]]. cbn [fst]. apply sigs_from in Y as [Y|[z [Z1 [Z2 Z3]]]]; [rewrite Y; unfold pow_ok; cbn; split; [lia|exists 2; cbn; lia]|].
    rewrite Z2, Z3. unfold tsigs in Z1. apply in_map_iff in Z1 as [w [<- W]]. cbn. specialize (S2 w W). destruct w as [[? ?] ?]. exact S2.
  - rewrite I4, S3. unfold adjust_list. cbn. reflexivity.
Qed.
