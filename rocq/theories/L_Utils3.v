From Coq Require Import QArith Qabs Qround Lia Lqa.
From Verif Require Import PyBase L_Base M_Note L_Note L_Note2 M_Events M_Chord S_Graph L_Chord L_Graph5 L_Transforms M_Utils S_Utils L_Utils L_Utils2.
Open Scope Z_scope.

(* argmin *)
Definition first_min {D} (lt : D -> D -> bool) (l : list D) (j : nat) (d : D) : Prop :=
  nth_error l j = Some d /\ (forall x, In x l -> lt x d = false) /\ (forall i x, (i < j)%nat -> nth_error l i = Some x -> lt d x = true).
Lemma argmin_spec : forall D (lt : D -> D -> bool), orders lt -> forall l pre best bi, first_min lt pre bi best ->
  exists d, first_min lt (pre ++ l) (argmin lt best bi (List.length pre) l) d.
Proof.
  intros D lt [AS NT]. induction l as [|y r IH]; intros pre best bi [A [B C]].
  - rewrite app_nil_r. exists best. split; auto.
  - assert (LT : (bi < List.length pre)%nat) by (apply nth_error_Some; congruence).
    cbn [argmin]. replace (pre ++ y :: r)%list with ((pre ++ [y]) ++ r)%list by (rewrite <- app_assoc; reflexivity).
    assert (LL : List.length (pre ++ [y]) = S (List.length pre)) by (rewrite app_length; cbn; lia).
    destruct (lt y best) eqn:E; rewrite <- LL; apply IH.
    + split; [rewrite nth_error_app2, Nat.sub_diag by lia; reflexivity|]. split.
      * intros x I. apply in_app_or in I as [I|[<-|[]]].
        -- specialize (B x I). eapply NT; [exact B|]. apply AS; auto.
        -- destruct (lt y y) eqn:F; auto. pose proof (AS _ _ F). congruence.
      * intros i x L N. rewrite nth_error_app1 in N by lia. pose proof (B x (nth_error_In _ _ N)) as B1.
        destruct (lt y x) eqn:F; auto. pose proof (NT _ _ _ F B1). congruence.
    + split; [rewrite nth_error_app1 by lia; auto|]. split.
      * intros x I. apply in_app_or in I as [I|[<-|[]]]; auto.
      * intros i x L N. rewrite nth_error_app1 in N by lia. eauto.
Qed.
Lemma orders_irrefl : forall D (lt : D -> D -> bool), orders lt -> forall d, lt d d = false.
Proof. intros D lt [AS _] d. destruct (lt d d) eqn:F; auto. pose proof (AS _ _ F). congruence. Qed.

Section VQ.
Variables A D : Type.
Variable lt : D -> D -> bool.
Hypothesis OR : orders lt.
Variable metric : A -> A -> D.

Lemma vq_ok : forall grid notes, grid <> [] -> exists q, vector_quantize lt metric grid notes = Ok q /\ Forall2 (first_nearest lt metric grid) notes q.
Proof.
  intros grid notes G. induction notes as [|n r [q [E F]]]; [exists []; split; [reflexivity|constructor]|].
  destruct grid as [|g0 gr]; [congruence|]. cbn [vector_quantize map].
  destruct (argmin_spec D lt OR (map (metric n) gr) [metric n g0] (metric n g0) 0) as [d [M1 [M2 M3]]].
  { split; [reflexivity|]. split; [intros x [<-|[]]; apply orders_irrefl; auto|intros i x L; lia]. }
  cbn [app List.length] in M1, M2, M3. set (j := argmin lt (metric n g0) 0 1 (map (metric n) gr)) in *.
  change (metric n g0 :: map (metric n) gr) with (map (metric n) (g0 :: gr)) in *.
  rewrite nth_error_map in M1. destruct (nth_error (g0 :: gr) j) as [g|] eqn:N; [|discriminate]. cbn [option_map] in M1. injection M1 as <-.
  rewrite E. cbn [bind]. exists (g :: q). split; [reflexivity|]. constructor; auto.
  exists j. split; [exact N|]. split.
  - intros h I. apply M2. apply in_map. exact I.
  - intros i h L I. apply (M3 i); auto. rewrite nth_error_map, I. reflexivity.
Qed.
Lemma vq_empty : forall notes, vector_quantize lt metric [] notes = match notes with [] => Ok [] | _ => Err ValueError end.
Proof. intros [|]; reflexivity. Qed.
Lemma first_nearest_self : forall grid n g, (forall h, lt (metric n n) (metric n h) = false -> h = n) -> In n grid -> first_nearest lt metric grid n g -> g = n.
Proof. intros grid n g SEP I [j [J [M _]]]. apply SEP. exact (M n I). Qed.
Lemma vq_idem : forall grid notes q, (forall n h, lt (metric n n) (metric n h) = false -> h = n) -> vector_quantize lt metric grid notes = Ok q ->
  vector_quantize lt metric grid q = Ok q.
Proof.
  intros grid notes q SEP H. destruct grid as [|g0 gr] eqn:G.
  { rewrite vq_empty in H. destruct notes; [apply Ok_inj in H; subst q; reflexivity|discriminate]. }
  assert (NE : grid <> []) by (rewrite G; discriminate). rewrite <- G in *. clear G.
  destruct (vq_ok grid notes NE) as [q1 [E F]]. rewrite E in H. apply Ok_inj in H. subst q1.
  destruct (vq_ok grid q NE) as [q2 [E2 F2]]. rewrite E2. f_equal.
  assert (IN : Forall (fun x => In x grid) q). { clear - F. induction F as [|a b l1 l2 [j [J _]] _ IH]; constructor; auto. eapply nth_error_In; eauto. }
  clear - SEP IN F2. induction F2 as [|a b l1 l2 X _ IH]; auto. inversion IN as [|? ? I1 I2]; subst. f_equal; auto. eapply first_nearest_self; eauto.
Qed.
End VQ.

(* step grid *)
Definition on_grid (k m : Z) (grid step : Q) : Q := (inject_Z (k / m) * grid + inject_Z (k mod m) * step)%Q.
Lemma on_grid_drift : forall k m grid step, m <> 0 -> (on_grid k m grid step == inject_Z k * step + inject_Z (k / m) * (grid - inject_Z m * step))%Q.
Proof.
  intros k m grid step M. unfold on_grid. rewrite (Z.div_mod k m) at 3 by auto. rewrite inject_Z_plus, inject_Z_mult. ring.
Qed.
Lemma on_grid_mono : forall m grid step j k, 0 < m -> (0 <= step)%Q -> (inject_Z m * step <= grid)%Q -> j <= k -> (on_grid j m grid step <= on_grid k m grid step)%Q.
Proof.
  intros m grid step j k M S G L. rewrite !on_grid_drift by lia. assert (D : j / m <= k / m) by (apply Z.div_le_mono; lia).
  rewrite Zle_Qle in L, D. assert (X : (0 <= grid - inject_Z m * step)%Q) by lra. set (d := (grid - inject_Z m * step)%Q) in *.
  assert (U : (0 <= (inject_Z k - inject_Z j) * step)%Q) by (apply Qmult_le_0_compat; lra).
  assert (V : (0 <= (inject_Z (k / m) - inject_Z (j / m)) * d)%Q) by (apply Qmult_le_0_compat; lra). lra.
Qed.
Lemma quot_pos : forall a b, (0 <= a)%Q -> (0 < b)%Q -> (0 <= a / b)%Q.
Proof. intros a b A B. apply Qle_shift_div_l; auto. lra. Qed.
Lemma step_grid_ok : forall s e step grid, (0 <= s)%Q -> (0 <= e)%Q -> (0 < step)%Q -> (step <= grid)%Q ->
  exists m ks ke, int_part (grid / step) m /\ 0 < m /\ nearest_even (s / step) ks /\ nearest_even (e / step) ke /\
    quantize_note_to_step_grid s e step grid = Ok (on_grid ks m grid step, on_grid ke m grid step).
Proof.
  intros s e step grid A B S G. unfold quantize_note_to_step_grid.
  destruct (Qltb s 0) eqn:E1; [apply Qltb_lt in E1; lra|]. destruct (Qltb e 0) eqn:E2; [apply Qltb_lt in E2; lra|]. cbn [orb].
  destruct (Qeq_bool step 0) eqn:E3; [apply Qeq_bool_iff in E3; lra|]. cbv zeta.
  assert (GP : (1 <= grid / step)%Q) by (apply Qle_shift_div_l; auto; lra).
  rewrite trunc_floor by lra. destruct (int_part_floor (grid / step)) as [F1 F2]. set (m := Qfloor (grid / step)) in *.
  assert (M : 0 < m) by (rewrite Zlt_Qlt; inj; lra). destruct (Z.eqb_spec m 0); [lia|].
  exists m, (round_half_even (s / step)), (round_half_even (e / step)). split; [split; auto|]. split; auto. split; [apply round_nearest|]. split; [apply round_nearest|]. reflexivity.
Qed.
Lemma step_grid_errors : forall s e step grid, (0 < step)%Q -> (0 <= grid)%Q ->
  (quantize_note_to_step_grid s e step grid = Err ValueError <-> (s < 0)%Q \/ (e < 0)%Q) /\
  (quantize_note_to_step_grid s e step grid = Err ZeroDivisionError <-> (0 <= s)%Q /\ (0 <= e)%Q /\ (grid < step)%Q) /\
  (forall x, quantize_note_to_step_grid s e step grid = Err x -> x = ValueError \/ x = ZeroDivisionError).
Proof.
  intros s e step grid S G.
  destruct (Qlt_le_dec s 0) as [A|A].
  { assert (X : quantize_note_to_step_grid s e step grid = Err ValueError) by (unfold quantize_note_to_step_grid; apply Qltb_lt in A; rewrite A; reflexivity).
    rewrite X. split; [split; auto|]. split; [split; [discriminate|intros [Y _]; lra]|]. intros x H; injection H as <-; auto. }
  destruct (Qlt_le_dec e 0) as [B|B].
  { assert (X : quantize_note_to_step_grid s e step grid = Err ValueError) by (unfold quantize_note_to_step_grid; apply Qltb_lt in B; rewrite B, orb_true_r; reflexivity).
    rewrite X. split; [split; auto|]. split; [split; [discriminate|intros [_ [Y _]]; lra]|]. intros x H; injection H as <-; auto. }
  destruct (Qlt_le_dec grid step) as [C|C].
  - assert (X : quantize_note_to_step_grid s e step grid = Err ZeroDivisionError).
    { unfold quantize_note_to_step_grid. destruct (Qltb s 0) eqn:E1; [apply Qltb_lt in E1; lra|]. destruct (Qltb e 0) eqn:E2; [apply Qltb_lt in E2; lra|]. cbn [orb].
      destruct (Qeq_bool step 0) eqn:E3; auto. cbv zeta.
      assert (GP : (0 <= grid / step)%Q) by (apply quot_pos; auto). assert (GL : (grid / step < 1)%Q) by (apply Qlt_shift_div_r; auto; lra).
      rewrite trunc_floor by auto. destruct (int_part_floor (grid / step)) as [F1 F2].
      assert (M : Qfloor (grid / step) = 0). { eapply int_part_unique; [reflexivity|apply int_part_floor|]. split; inj; lra. } rewrite M. reflexivity. }
    rewrite X. split; [split; [discriminate|intros [Y|Y]; lra]|]. split; [split; auto|]. intros x H; injection H as <-; auto.
  - destruct (step_grid_ok s e step grid A B S C) as [m [ks [ke [_ [_ [_ [_ X]]]]]]]. rewrite X. split; [split; [discriminate|intros [Y|Y]; lra]|].
    split; [split; [discriminate|intros [_ [_ Y]]; lra]|]. intros x H; discriminate.
Qed.
Lemma near_step : forall t step k, (0 < step)%Q -> nearest_even (t / step) k -> (Qabs (inject_Z k * step - t) <= step * (1 # 2))%Q.
Proof.
  intros t step k S [N _]. apply Qabs_Qle_condition in N. set (y := (t / step)%Q) in *. assert (Y : (y * step == t)%Q) by (unfold y; field; lra). clearbody y.
  rewrite <- Y. apply Qabs_Qle_condition. set (kk := inject_Z k) in *. clearbody kk. split; nra.
Qed.
Lemma step_grid_drift : forall s e step grid qs qe, (0 < step)%Q -> (step <= grid)%Q -> quantize_note_to_step_grid s e step grid = Ok (qs, qe) ->
  exists m ks ke, int_part (grid / step) m /\ nearest_even (s / step) ks /\ nearest_even (e / step) ke /\
    (qs == inject_Z ks * step + inject_Z (ks / m) * (grid - inject_Z m * step))%Q /\ (qe == inject_Z ke * step + inject_Z (ke / m) * (grid - inject_Z m * step))%Q.
Proof.
  intros s e step grid qs qe S G H. assert (A : (0 <= s)%Q /\ (0 <= e)%Q).
  { destruct (step_grid_errors s e step grid) as [X _]; [lra|lra|]. split; apply Qnot_lt_le; intro Y.
    - rewrite (proj2 X) in H by auto. discriminate.
    - rewrite (proj2 X) in H by auto. discriminate. }
  destruct A as [A B]. destruct (step_grid_ok s e step grid A B S G) as [m [ks [ke [I [M [N1 [N2 X]]]]]]]. rewrite X in H. apply Ok_inj in H.
  apply (f_equal fst) in H as H1. apply (f_equal snd) in H as H2. cbn [fst snd] in H1, H2. subst qs qe.
  exists m, ks, ke. split; [exact I|]. split; [exact N1|]. split; [exact N2|]. split; apply on_grid_drift; lia.
Qed.
Lemma step_grid_mono : forall s e step grid qs qe, (0 < step)%Q -> (step <= grid)%Q -> (s <= e)%Q -> quantize_note_to_step_grid s e step grid = Ok (qs, qe) -> (qs <= qe)%Q.
Proof.
  intros s e step grid qs qe S G L H. assert (A : (0 <= s)%Q /\ (0 <= e)%Q).
  { destruct (step_grid_errors s e step grid) as [X _]; [lra|lra|]. split; apply Qnot_lt_le; intro Y.
    - rewrite (proj2 X) in H by auto. discriminate.
    - rewrite (proj2 X) in H by auto. discriminate. }
  destruct A as [A B]. destruct (step_grid_ok s e step grid A B S G) as [m [ks [ke [[I1 I2] [M [N1 [N2 X]]]]]]]. rewrite X in H. apply Ok_inj in H.
  apply (f_equal fst) in H as H1. apply (f_equal snd) in H as H2. cbn [fst snd] in H1, H2. subst qs qe. apply on_grid_mono; auto; [lra| |].
  - set (y := (grid / step)%Q) in *. assert (Y : (y * step == grid)%Q) by (unfold y; field; lra). rewrite <- Y. apply Qmult_le_compat_r; auto; lra.
  - eapply nearest_mono; [|exact N1|exact N2]. apply Qle_shift_div_l; auto. setoid_replace (s / step * step)%Q with s by (field; lra). exact L.
Qed.
Lemma step_grid_aligned : forall s e step grid n qs qe, (0 < step)%Q -> 0 < n -> (grid == inject_Z n * step)%Q -> quantize_note_to_step_grid s e step grid = Ok (qs, qe) ->
  exists ks ke, nearest_even (s / step) ks /\ nearest_even (e / step) ke /\ (qs == inject_Z ks * step)%Q /\ (qe == inject_Z ke * step)%Q /\
    (Qabs (qs - s) <= step * (1 # 2))%Q /\ (Qabs (qe - e) <= step * (1 # 2))%Q.
Proof.
  intros s e step grid n qs qe S N E H. assert (N1 : 1 <= n) by lia. rewrite Zle_Qle in N1. inj.
  assert (G : (step <= grid)%Q) by (rewrite E; nra). destruct (step_grid_drift s e step grid qs qe S G H) as [m [ks [ke [I [M1 [M2 [Q1 Q2]]]]]]].
  assert (m = n). { eapply (int_part_unique (grid / step)); [reflexivity|exact I|]. assert (X : (grid / step == inject_Z n)%Q) by (rewrite E; field; lra). split; rewrite X; lra. } subst m.
  assert (Z0 : (grid - inject_Z n * step == 0)%Q) by lra. rewrite Z0 in Q1, Q2. exists ks, ke.
  assert (P1 : (qs == inject_Z ks * step)%Q) by lra. assert (P2 : (qe == inject_Z ke * step)%Q) by lra.
  split; [exact M1|]. split; [exact M2|]. split; [exact P1|]. split; [exact P2|]. rewrite P1, P2. split; apply near_step; auto.
Qed.
Lemma step_grid_bounded : forall step grid, (0 < step)%Q -> (step <= grid)%Q ->
  ((exists bound, forall t qs qe, (0 <= t)%Q -> quantize_note_to_step_grid t t step grid = Ok (qs, qe) -> (Qabs (qs - t) <= bound)%Q) <-> exists n, 0 < n /\ (grid == inject_Z n * step)%Q).
Proof.
  intros step grid S G. split.
  - intros [b H]. destruct (step_grid_ok 0 0 step grid) as [m [_ [_ [[I1 I2] [M _]]]]]; [lra|lra|auto|auto|].
    exists m. split; [exact M|]. assert (Y : (grid / step * step == grid)%Q) by (field; lra). set (y := (grid / step)%Q) in *. clearbody y.
    destruct (Qlt_le_dec (inject_Z m * step) grid) as [L|L]; [|nra]. exfalso.
    set (d := (grid - inject_Z m * step)%Q). assert (D : (0 < d)%Q) by (unfold d; lra).
    set (K := Z.max 0 (Qceiling (b / d) + 1)). assert (KB : (b < inject_Z K * d)%Q).
    { destruct (Qceiling_bounds (b / d)) as [C1 _]. assert (X : Qceiling (b / d) + 1 <= K) by lia. rewrite Zle_Qle in X. inj.
      assert (BD : (b / d * d == b)%Q) by (field; lra). set (z := (b / d)%Q) in *. clearbody z. set (cc := inject_Z (Qceiling z)) in *. set (kk := inject_Z K) in *. clearbody cc kk. nra. }
    assert (K0 : 0 <= K) by lia. clearbody K.
    set (t := (inject_Z (K * m) * step)%Q). assert (T0 : (0 <= t)%Q). { unfold t. apply Qmult_le_0_compat; [|lra]. change 0%Q with (inject_Z 0). rewrite <- Zle_Qle. nia. }
    destruct (step_grid_ok t t step grid T0 T0 S G) as [m' [ks [ke [I' [M' [N1 [N2 X]]]]]]].
    assert (Y2 : (grid / step == y)%Q) by (rewrite <- Y; field; lra). assert (m' = m) by (eapply int_part_unique; [exact Y2|exact I'|split; auto]).
    subst m'. specialize (H _ _ _ T0 X). rewrite on_grid_drift in H by lia.
    assert (ks = K * m). { eapply (nearest_unique _ (inject_Z (K * m))); [|exact N1|]. { unfold t. field. lra. } rewrite <- (nearest_exact (inject_Z (K * m)) (K * m)) at 2 by reflexivity. apply round_nearest. }
    subst ks. rewrite Z.div_mul in H by lia. fold d in H. fold t in H. assert (E : (t + inject_Z K * d - t == inject_Z K * d)%Q) by ring. rewrite E in H. apply Qabs_Qle_condition in H. lra.
  - intros [n [N E]]. exists (step * (1 # 2))%Q. intros t qs qe T H. destruct (step_grid_aligned t t step grid n qs qe S N E H) as [_ [_ [_ [_ [_ [_ [X _]]]]]]]. exact X.
Qed.

(* interpolation *)
Lemma interpolates_ok : forall s e step grid tempo n, (0 < step)%Q -> (0 < tempo)%Q -> 0 < n -> (grid * (8 * tempo) == inject_Z n * step)%Q ->
  exists ks ke qs qe, nearest_even (s * (8 * tempo) / step) ks /\ nearest_even (e * (8 * tempo) / step) ke /\ interpolates_quantize s e step grid tempo = Ok (qs, qe) /\
    (qs == inject_Z (ks / n) * grid + inject_Z (ks mod n) * step)%Q /\ (qe == inject_Z (ke / n) * grid + inject_Z (ke mod n) * step)%Q.
Proof.
  intros s e step grid tempo n S T N E. unfold interpolates_quantize. cbv zeta. destruct (Qeq_bool step 0) eqn:E0; [apply Qeq_bool_iff in E0; lra|].
  assert (TP : (480 * tempo / 60 == 8 * tempo)%Q) by field.
  destruct (Qeq_bool (480 * tempo / 60) 0) eqn:E1; [apply Qeq_bool_iff in E1; rewrite TP in E1; lra|].
  assert (X : (grid / step * (480 * tempo / 60) == inject_Z n)%Q). { setoid_replace (grid / step * (480 * tempo / 60))%Q with (grid * (8 * tempo) / step)%Q by (field; lra). rewrite E. field. lra. }
  assert (M : Qtrunc (grid / step * (480 * tempo / 60)) = n). { rewrite trunc_floor. { rewrite (Qfloor_comp _ _ X). apply Qfloor_Z. } rewrite X. change 0%Q with (inject_Z 0). rewrite <- Zle_Qle. lia. }
  rewrite M. destruct (Z.eqb_spec n 0); [lia|].
  exists (round_half_even (s * (480 * tempo / 60) / step)), (round_half_even (e * (480 * tempo / 60) / step)). eexists; eexists.
  assert (R : forall t, nearest_even (t * (8 * tempo) / step) (round_half_even (t * (480 * tempo / 60) / step))).
  { intro t. pose proof (round_nearest (t * (480 * tempo / 60) / step)) as [R1 R2]. assert (Y : (t * (480 * tempo / 60) / step == t * (8 * tempo) / step)%Q) by (rewrite TP; reflexivity).
    split; [rewrite <- Y; auto|rewrite <- Y; auto]. }
  split; [apply R|]. split; [apply R|]. split; [reflexivity|]. split; reflexivity.
Qed.
Lemma interpolates_offset : forall s e step grid tempo n qs qe, (0 < step)%Q -> (0 < tempo)%Q -> 0 < n -> (grid * (8 * tempo) == inject_Z n * step)%Q ->
  interpolates_quantize s e step grid tempo = Ok (qs, qe) ->
  exists ks, nearest_even (s * (8 * tempo) / step) ks /\ (qs - inject_Z ks * step / (8 * tempo) == inject_Z (ks mod n) * (step - step / (8 * tempo)))%Q.
Proof.
  intros s e step grid tempo n qs qe S T N E H. destruct (interpolates_ok s e step grid tempo n S T N E) as [ks [ke [qs' [qe' [A [_ [X [Q1 _]]]]]]]].
  rewrite X in H. apply Ok_inj in H. apply (f_equal fst) in H. cbn [fst] in H. subst qs'. exists ks. split; [exact A|].
  assert (GR : (grid == inject_Z n * step / (8 * tempo))%Q) by (rewrite <- E; field; lra). rewrite Q1, GR.
  assert (K : (inject_Z ks == inject_Z n * inject_Z (ks / n) + inject_Z (ks mod n))%Q) by (rewrite <- inject_Z_mult, <- inject_Z_plus; rewrite <- Z.div_mod by lia; reflexivity). rewrite K. field. lra.
Qed.
