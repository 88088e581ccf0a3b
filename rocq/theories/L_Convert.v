(** Lemmas on put_tempi. *)
From Coq Require Import Lqa Lia Sorted Permutation.
From Verif Require Import PyBase L_Base M_Beats M_Adjust M_SortedDict M_Note L_Note M_Events M_Seq M_Seqs M_Ticks S_Ticks L_Ticks M_Load M_Write M_Meta M_Song M_Reader M_Pipe M_Tempi M_Convert S_Convert L_Note2.
Open Scope Z_scope.

Lemma tick_single : forall r sc pre s t, (0 < s)%Q -> sc = pre ++ [(0, s)] \/ (exists k, sc = pre ++ [(k, s)]) ->
  exists k, time_to_tick (mkPM r sc [0%Q]) t = Ok k /\ ((t <= 0)%Q -> k = 0) /\ ((0 < t)%Q -> k = round_half_even (0 + (t - 0) / s)).
Proof.
  intros r sc pre s t S0 E. assert (L : exists k, rev sc = (k, s) :: rev pre).
  { destruct E as [->|[k ->]]; rewrite rev_app_distr; cbn; eauto. }
  destruct L as [k L]. unfold time_to_tick. cbn [p_times p_scales].
  assert (B : bisect_left Qltb [0%Q] t = if Qltb 0 t then 1%nat else 0%nat) by (unfold bisect_left; cbn; destruct (Qltb 0 t); reflexivity).
  rewrite B. destruct (Qltb 0 t) eqn:Q0.
  - cbn [List.length Nat.eqb]. change (Z.of_nat 1 - 1) with 0. cbn [py_nth]. change (py_nth [0%Q] 0) with (Ok 0%Q). cbn [bind]. rewrite L.
    destruct (Qeq_bool s 0) eqn:E0; [apply Qeq_bool_iff in E0; lra|]. eexists. split; [reflexivity|]. apply Qltb_lt in Q0. split; [intros; lra|]. intros _. reflexivity.
  - cbn [List.length Nat.eqb]. exists 0. split; [reflexivity|]. apply Qltb_ge in Q0. split; auto. intros; lra.
Qed.
Lemma put_tempi_ok : forall r l sc pre k q, 0 < r -> (0 < q)%Q -> (forall s, In s l -> (0 < g_data s)%Q) ->
  forall s0, (s0 == 60 / (q * inject_Z r))%Q -> sc = pre ++ [(k, s0)] ->
  exists tl, put_tempi (mkPM r sc [0%Q]) l = Ok (mkPM r (sc ++ tl) [0%Q]) /\ Forall2 (fun x e => placed r (fst x) (snd x) e) (combine (q :: map g_data l) l) tl.
Proof.
  intros r l. induction l as [|s l IH]; intros sc pre k q Hr Hq H s0 E0 ES.
  - exists []. rewrite app_nil_r. split; [reflexivity|constructor].
  - cbn [put_tempi]. unfold put_tempo. cbn [p_res p_scales]. assert (D := H s (or_introl eq_refl)).
    destruct (scale_bpm_ok (g_data s) r D Hr) as [sc1 [E1 [V1 P1]]]. rewrite E1. cbn [bind].
    assert (S0 : (0 < s0)%Q). { rewrite E0. apply Qlt_shift_div_l; [apply Qmult_lt_0_compat; auto; apply inject_pos'; auto|lra]. }
    destruct (tick_single r sc pre s0 (g_time s) S0 (or_intror (ex_intro _ k ES))) as [j [EJ [J1 J2]]]. rewrite EJ. cbn [bind].
    destruct (IH (sc ++ [(j, sc1)]) sc j (g_data s) Hr D (fun x X => H x (or_intror X)) sc1 V1 eq_refl) as [tl [ET F]].
    exists ((j, sc1) :: tl). rewrite ET. rewrite <- app_assoc. cbn [app]. split; [reflexivity|]. cbn [map combine]. constructor; [|exact F].
    cbn [fst snd]. split; [exact V1|]. split; [exact J1|]. intros G. specialize (J2 G). cbn [fst]. split.
    + rewrite J2. apply round_floor. change (inject_Z 0) with 0%Q. assert (0 <= (g_time s - 0) / s0)%Q by (apply Qle_shift_div_l; [auto|lra]). lra.
    + rewrite J2. pose proof (round_half_even_near (0 + (g_time s - 0) / s0)) as N.
      assert (EQ : (0 + (g_time s - 0) / s0 == g_time s * (q * inject_Z r / 60))%Q). { rewrite E0. assert (0 < inject_Z r)%Q by (apply inject_pos'; auto). field. split; lra. }
      rewrite (Qabsb_comp _ (inject_Z (round_half_even (0 + (g_time s - 0) / s0)) - (0 + (g_time s - 0) / s0))); [exact N|]. lra.
Qed.
