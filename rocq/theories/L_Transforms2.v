(** Lemmas for P_Transforms.v: splits, one-hot rows, piano rolls. *)
From Coq Require Import Sorted Permutation QArith Qround Lia Lqa.
From Verif Require Import PyBase L_Base M_Note M_Events M_Load M_Transforms S_Seq S_Transforms L_Note L_Seq L_Load3 L_Transforms.
Open Scope Z_scope.

Lemma edge_drop_labels : forall p draws d l pos neg pi, d_ei d = EPairs l -> List.length draws = List.length l ->
  (match d_ea d with Some a => List.length a = List.length l | None => True end) ->
  d_pos d = Some (Some pos) -> d_neg d = Some (Some neg) -> d_posi d = Some pi -> List.length pi <> List.length l -> edge_drop p draws d = Err IndexError.
Proof.
  intros p draws d l pos neg pi E L EA P N PI NE. unfold edge_drop. rewrite E, P, N, PI. rewrite msel_ok by (rewrite map_length; auto). cbn [bind opt_get].
  assert (M : msel (map (fun r => Qle_bool p r) draws) pi = Err IndexError) by (unfold msel; rewrite map_length; destruct (Nat.eqb_spec (List.length draws) (List.length pi)); [congruence|reflexivity]).
  destruct (d_ea d) as [a|]; [rewrite msel_ok by (rewrite map_length; lia)|]; cbn [bind]; rewrite M; reflexivity.
Qed.

(** The edge labels that survive *)
Lemma edge_drop_pos_neg : forall p draws d l pos neg pi ni, d_ei d = EPairs l -> List.length draws = List.length l ->
  (match d_ea d with Some a => List.length a = List.length l | None => True end) ->
  d_pos d = Some (Some pos) -> d_neg d = Some (Some neg) -> d_posi d = Some pi -> d_negi d = Some ni -> List.length pi = List.length l -> List.length ni = List.length l ->
  d_train d <> None -> d_val d <> None -> d_test d <> None -> d_hash d <> None ->
  exists d' l' pi' ni', edge_drop p draws d = Ok d' /\ d_ei d' = EPairs l' /\ d_posi d' = Some pi' /\ d_negi d' = Some ni' /\ d_pos d' = d_pos d /\ d_neg d' = d_neg d /\
    (forall k, In k [(l, l'); (pi, pi'); (ni, ni')] ->
       selects (fun er => (p <= snd er)%Q) (combine (fst k) draws) (combine (snd k) (filter (Qle_bool p) draws)) /\ List.length (snd k) = List.length (filter (Qle_bool p) draws)).
Proof.
  intros p draws d l pos neg pi ni E L EA P N PI NI LP LN T V TE H. unfold edge_drop. rewrite E, P, N, PI, NI.
  destruct (d_train d) as [tr|]; [|congruence]. destruct (d_val d) as [va|]; [|congruence]. destruct (d_test d) as [te|]; [|congruence]. destruct (d_hash d) as [h|]; [|congruence].
  rewrite (msel_ok _ _ l) by (rewrite map_length; auto). cbn [bind opt_get].
  rewrite (msel_ok _ _ pi) by (rewrite map_length; lia). cbn [bind opt_get]. rewrite (msel_ok _ _ ni) by (rewrite map_length; lia). cbn [bind opt_get fst snd].
  assert (WF : forall k, where_true (map (fun r => Qle_bool p r) k) k = filter (Qle_bool p) k) by (induction k as [|x k IH]; cbn; auto; rewrite IH; reflexivity).
  assert (MS : forall A (k : list A), List.length k = List.length draws -> map (fun r => Qle_bool p r) draws = map (fun er => Qle_bool p (snd er)) (combine k draws)).
  { clear. intros A k. revert k. induction draws as [|r q IH]; intros [|x k]; cbn; try discriminate; auto. intros X. f_equal. apply IH. auto. }
  assert (SEL : forall A (k : list A), List.length k = List.length draws -> selects (fun er => (p <= snd er)%Q) (combine k draws) (combine (where_true (map (fun r => Qle_bool p r) draws) k) (filter (Qle_bool p) draws)) /\
    List.length (where_true (map (fun r => Qle_bool p r) draws) k) = List.length (filter (Qle_bool p) draws)).
  { intros A k LK. split; [|rewrite <- WF; apply where_len; auto]. rewrite <- WF. rewrite <- where_combine by auto. rewrite (MS A k LK). apply where_selects. intros [x r] _. cbn. apply Qle_bool_iff. }
  assert (Z1 : forall ea, exists d' l' pi' ni', (Ok (mkD None (d_x d) (EPairs (where_true (map (fun r => Qle_bool p r) draws) l)) ea (d_y d) (Some tr) (Some va) (Some te) (Some (Some pos)) (Some (Some neg)) (Some (where_true (map (fun r => Qle_bool p r) draws) pi)) (Some (where_true (map (fun r => Qle_bool p r) draws) ni)) (Some h) false) = Ok d') /\
    d_ei d' = EPairs l' /\ d_posi d' = Some pi' /\ d_negi d' = Some ni' /\ d_pos d' = Some (Some pos) /\ d_neg d' = Some (Some neg) /\
    (forall k, In k [(l, l'); (pi, pi'); (ni, ni')] ->
       selects (fun er => (p <= snd er)%Q) (combine (fst k) draws) (combine (snd k) (filter (Qle_bool p) draws)) /\ List.length (snd k) = List.length (filter (Qle_bool p) draws))).
  { intros ea. eexists. eexists. eexists. eexists. split; [reflexivity|]. cbn [d_ei d_posi d_negi d_pos d_neg]. do 5 (split; [reflexivity|]).
    intros k [<-|[<-|[<-|[]]]]; cbn [fst snd]; apply SEL; lia. }
  destruct (d_ea d) as [a|]; [rewrite msel_ok by (rewrite map_length; lia)|]; cbn [bind]; apply Z1.
Qed.
Lemma edge_drop_attr : forall p draws d l, d_ei d = EPairs l -> List.length draws = List.length l ->
  (match d_ea d with Some a => List.length a = List.length l | None => True end) ->
  d_pos d = None \/ (d_pos d = Some None /\ (d_neg d = None \/ d_train d = None \/ d_val d = None \/ d_test d = None \/ d_hash d = None)) ->
  edge_drop p draws d = Err AttributeError.
Proof.
  intros p draws d l E L EA H. unfold edge_drop. rewrite E. rewrite (msel_ok _ _ l) by (rewrite map_length; auto). cbn [bind].
  assert (X : forall ea : option (list Q), opt_get (d_pos d) (fun pos =>
    bind (match pos with None => Ok None | Some _ => opt_get (d_neg d) (fun neg => Ok neg) end) (fun both =>
    bind (match both with
          | None => Ok (None, None)
          | Some _ => opt_get (d_posi d) (fun pi => bind (msel (map (fun r => Qle_bool p r) draws) pi) (fun pi' => opt_get (d_negi d) (fun ni => bind (msel (map (fun r => Qle_bool p r) draws) ni) (fun ni' => Ok (Some pi', Some ni')))))
          end) (fun pn =>
    opt_get (d_neg d) (fun neg =>
    opt_get (d_train d) (fun tr => opt_get (d_val d) (fun va => opt_get (d_test d) (fun te => opt_get (d_hash d) (fun h =>
      Ok (mkD None (d_x d) (EPairs (where_true (map (fun r => Qle_bool p r) draws) l)) ea (d_y d) (Some tr) (Some va) (Some te) (Some pos) (Some neg) (fst pn) (snd pn) (Some h) false))))))))) = Err AttributeError).
  { intros ea. destruct H as [->|[-> H]]; [reflexivity|]. cbn [opt_get bind].
    destruct (d_neg d) as [neg|]; [|reflexivity]. cbn [opt_get]. destruct (d_train d); [|reflexivity]. cbn [opt_get]. destruct (d_val d); [|reflexivity]. cbn [opt_get]. destruct (d_test d); [|reflexivity]. cbn [opt_get]. destruct (d_hash d); [|reflexivity].
    destruct H as [H|[H|[H|[H|H]]]]; discriminate. }
  destruct (d_ea d) as [a|]; [rewrite msel_ok by (rewrite map_length; lia)|]; cbn [bind]; apply X.
Qed.
(** filter_adj on its own, without a number of nodes *)
Lemma fold_max_ge : forall l z x, (x <= z \/ exists y, In y l /\ x <= y) -> x <= fold_left Z.max l z.
Proof.
  induction l as [|y l IH]; intros z x H; [destruct H as [H|[y [[] _]]]; auto|]. cbn [fold_left]. apply IH.
  destruct H as [H|[y' [[->|H] L]]]; [left; lia|left; lia|right; eauto].
Qed.
Lemma fold_max_le : forall l z m, z <= m -> (forall y, In y l -> y <= m) -> fold_left Z.max l z <= m.
Proof. induction l as [|y l IH]; intros z m H F; [auto|]. cbn [fold_left]. apply IH; [specialize (F y (or_introl eq_refl)); lia|intros; apply F; right; auto]. Qed.
Lemma adj_size_max : forall l m, 0 <= m -> (forall a b, In (a, b) l -> a <= m /\ b <= m) -> (exists a b, In (a, b) l /\ (a = m \/ b = m)) -> adj_size l None = Ok (S (Z.to_nat m)).
Proof.
  intros l m M B [a [b [I E]]]. destruct l as [|[x y] l0]; [destruct I|]. cbn [adj_size]. cbv zeta. set (l := (x, y) :: l0) in *.
  assert (IN : forall z, In z (List.concat (map (fun ab : Z * Z => [fst ab; snd ab]) l)) -> z <= m).
  { intros z Hz. apply in_concat in Hz as [w [Hw Hz]]. apply in_map_iff in Hw as [[u v] [<- Hw]]. apply B in Hw. cbn in Hz. destruct Hz as [<-|[<-|[]]]; tauto. }
  assert (F : fold_left Z.max (List.concat (map (fun ab : Z * Z => [fst ab; snd ab]) l)) (Z.max x y) = m).
  { apply Z.le_antisymm.
    - apply fold_max_le; auto. destruct (B x y (or_introl eq_refl)). lia.
    - apply fold_max_ge. right. exists m. split; [|lia]. apply in_concat. exists [a; b]. split; [apply in_map_iff; exists (a, b); auto|cbn; destruct E; auto]. }
  rewrite F. destruct (Z.ltb_spec m (-1)); [lia|]. f_equal. lia.
Qed.
Lemma filter_adj_alone : forall l a keep m, 0 <= m -> (forall x y, In (x, y) l -> 0 <= x <= m /\ 0 <= y <= m) -> (exists x y, In (x, y) l /\ (x = m \/ y = m)) -> List.length a = List.length l ->
  ((forall i, In i keep -> Z.of_nat i <= m) -> exists l' a', filter_adj l (Some a) keep None = Ok (l', Some a') /\ List.length a' = List.length l' /\
     selects (fun ea => among keep (fst ea)) (combine l a) (combine l' a')) /\
  ((exists i, In i keep /\ m < Z.of_nat i) -> filter_adj l (Some a) keep None = Err IndexError).
Proof.
  intros l a keep m M B X LA. assert (S0 : adj_size l None = Ok (S (Z.to_nat m))) by (apply adj_size_max; auto; intros u v H; apply B in H; lia).
  unfold filter_adj. rewrite S0. cbn [bind]. split.
  - intros K. rewrite (proj2 (forallb_forall _ keep)); [|intros i I; apply Nat.ltb_lt; specialize (K i I); lia].
    destruct (edge_mask_ok (S (Z.to_nat m)) (in_nats keep) l keep) as [g [G1 G2]]; [intros u v H; apply B in H; lia|intros; apply in_nats_iff|].
    rewrite G1. cbn [bind]. rewrite (msel_ok _ _ l) by apply map_length. cbn [bind]. rewrite (msel_ok _ _ a) by (rewrite map_length; auto). cbn [bind].
    eexists. eexists. split; [reflexivity|]. split; [apply where_len; auto|]. rewrite <- where_combine by auto.
    rewrite (map_combine_fst _ _ _ g l a) by auto. apply where_selects. intros [e q] I. cbn. apply G2. apply in_combine_l in I. exact I.
  - intros [i [I L]]. destruct (forallb _ keep) eqn:F; [|reflexivity]. rewrite forallb_forall in F. specialize (F i I). apply Nat.ltb_lt in F. lia.
Qed.

(** ** Splits *)
Lemma split_ok : forall A r (ds : list A) perm, (0 <= r)%Q -> (r <= 1)%Q -> Permutation perm (seq 0 (List.length ds)) ->
  exists a b, split_ds r ds perm = Ok (a, b) /\ List.length a = drops r (List.length ds) /\ Permutation (a ++ b) ds.
Proof.
  intros A r ds perm P1 P2 PM. set (n := List.length ds) in *. destruct (drops_le r n P1 P2) as [D1 D2].
  assert (PN : (0 <= inject_Z (Z.of_nat n) * r)%Q) by (apply Qmult_le_0_compat; auto; change 0%Q with (inject_Z 0); rewrite <- Zle_Qle; lia).
  assert (T : Qtrunc (inject_Z (Z.of_nat n) * r) = Qfloor (r * inject_Z (Z.of_nat n))) by (rewrite trunc_floor by auto; apply Qfloor_comp; ring).
  unfold split_ds. fold n. rewrite T. cbv zeta. destruct (Z.ltb_spec (Qfloor (r * inject_Z (Z.of_nat n))) 0); [lia|]. destruct (Z.ltb_spec (Z.of_nat n) (Qfloor (r * inject_Z (Z.of_nat n)))); [lia|]. cbn [orb]. fold (drops r n).
  assert (B : forall i, In i perm -> (i < n)%nat) by (intros i I; apply (Permutation_in _ PM) in I; apply in_seq in I; lia).
  destruct (take_ok _ ds (firstn (drops r n) perm)) as [a [A1 A2]]. { intros i I. apply B. rewrite <- (firstn_skipn (drops r n) perm). apply in_or_app. auto. }
  destruct (take_ok _ ds (skipn (drops r n) perm)) as [b [B1 B2]]. { intros i I. apply B. rewrite <- (firstn_skipn (drops r n) perm). apply in_or_app. auto. }
  rewrite A1, B1. cbn [bind]. exists a, b. split; [reflexivity|]. split.
  - rewrite (picked_len _ _ _ _ A2), firstn_length, (Permutation_length PM), seq_length. unfold drops. lia.
  - assert (X : map Some (a ++ b) = map (nth_error ds) perm) by (rewrite map_app, A2, B2, <- map_app, firstn_skipn; reflexivity).
    assert (Y : Permutation (map Some (a ++ b)) (map Some ds)).
    { rewrite X. rewrite (Permutation_map (nth_error ds) PM). replace (map (nth_error ds) (seq 0 n)) with (map Some ds); [reflexivity|].
      apply nth_error_ext. intros i. rewrite !nth_error_map. destruct (Nat.lt_ge_cases i n) as [Hi|Hi].
      - rewrite (nth_error_nth' (seq 0 n) 0%nat) by (rewrite seq_length; auto). rewrite seq_nth by auto. cbn. destruct (nth_error ds i) eqn:E; auto. apply nth_error_None in E. fold n in E. lia.
      - rewrite (proj2 (nth_error_None ds i)) by auto. rewrite (proj2 (nth_error_None (seq 0 n) i)) by (rewrite seq_length; auto). reflexivity. }
    apply (Permutation_map (fun o => match o with Some x => [x] | None => [] end)) in Y. rewrite !map_map in Y.
    assert (Z9 : forall k : list A, List.concat (map (fun x => [x]) k) = k) by (induction k; cbn; auto; rewrite IHk; auto).
    rewrite <- (Z9 (a ++ b)), <- (Z9 ds). apply (Permutation_flat_map (fun x : list A => x)) in Y. rewrite !flat_map_concat_map, !map_id in Y. exact Y.
Qed.

(** ** One-hot rows *)
Lemma hot_rows_ok : forall depth l, (forall i, In i l -> - Z.of_nat depth <= i < Z.of_nat depth) ->
  exists rows, hot_rows depth l = Ok rows /\
    Forall2 (fun i row => List.length row = depth /\ exists k, designates depth i k /\ forall j, nth_error row j = Some true <-> j = k) l rows.
Proof.
  intros depth l. induction l as [|i l IH]; intros H; [exists []; split; [reflexivity|constructor]|]. destruct IH as [rows [R F]]; [intros; apply H; right; auto|]. cbn [hot_rows].
  destruct (wrap depth i) as [k|] eqn:W; [|apply (proj2 (wrap_spec depth i)) in W; exfalso; apply W; apply H; left; auto]. apply (proj1 (wrap_spec depth i)) in W.
  rewrite R. cbn [bind]. eexists. split; [reflexivity|]. constructor; [|exact F]. unfold hot_row. rewrite upd_nth_len, repeat_length. split; [reflexivity|]. exists k. split; [exact W|].
  intros j. rewrite upd_nth_get. destruct (Nat.eqb_spec j k) as [->|N].
  - split; auto. intros _. destruct W as [W _]. destruct (nth_error (repeat false depth) k) eqn:E; [reflexivity|]. apply nth_error_None in E. rewrite repeat_length in E. lia.
  - split; [|congruence]. intros E. apply nth_error_In, repeat_spec in E. discriminate.
Qed.
Lemma hot_rows_bad : forall depth l i, In i l -> ~ (- Z.of_nat depth <= i < Z.of_nat depth) -> hot_rows depth l = Err IndexError.
Proof.
  intros depth l i. induction l as [|a l IH]; intros I N; [destruct I|]. cbn [hot_rows]. destruct (wrap depth a) eqn:W; [|reflexivity]. destruct I as [->|I].
  - apply (proj2 (wrap_spec depth i)) in N. congruence.
  - rewrite IH by auto. reflexivity.
Qed.

(** ** Piano rolls *)
Definition cell (m : list (list Z)) (r c : nat) : Z := nth c (nth r m []) 0.
Definition shape (h w : nat) (m : list (list Z)) : Prop := List.length m = h /\ Forall (fun r => List.length r = w) m.
Lemma nth_upd : forall A (l : list A) n f m d, nth m (upd_nth l n f) d = if Nat.eqb m n then (if Nat.ltb n (List.length l) then f (nth n l d) else d) else nth m l d.
Proof.
  intros. rewrite <- !nth_default_eq. unfold nth_default. rewrite upd_nth_get. destruct (Nat.eqb_spec m n) as [->|]; [|reflexivity]. destruct (Nat.ltb_spec n (List.length l)).
  - destruct (nth_error l n) eqn:E; [reflexivity|]. apply nth_error_None in E. lia.
  - rewrite (proj2 (nth_error_None l n)) by auto. reflexivity.
Qed.
Lemma shape_set : forall h w m r c v, shape h w m -> shape h w (set2 m r c v).
Proof.
  intros h w m r c v [A B]. unfold set2. split; [rewrite upd_nth_len; auto|]. apply Forall_forall. intros x I. apply In_nth_error in I as [k I]. rewrite upd_nth_get in I. rewrite Forall_forall in B.
  destruct (Nat.eqb_spec k r); [destruct (nth_error m r) eqn:E|apply B; eapply nth_error_In; eauto]; [|discriminate]. cbn in I. injection I as <-. rewrite upd_nth_len. apply B. eapply nth_error_In; eauto.
Qed.
Lemma cell_set : forall h w m r c v i j, shape h w m -> (r < h)%nat -> (c < w)%nat -> cell (set2 m r c v) i j = if (Nat.eqb i r && Nat.eqb j c)%bool then v else cell m i j.
Proof.
  intros h w m r c v i j [A B] R C. unfold cell, set2. rewrite nth_upd. destruct (Nat.eqb_spec i r) as [->|]; [|reflexivity]. destruct (Nat.ltb_spec r (List.length m)); [|lia]. rewrite nth_upd. cbn [andb].
  destruct (Nat.eqb_spec j c) as [->|]; [|reflexivity]. destruct (Nat.ltb_spec c (List.length (nth r m []))); [reflexivity|]. rewrite Forall_forall in B. rewrite (B (nth r m [])) in * by (apply nth_In; auto). lia.
Qed.
Lemma trunc_col : forall fs t, (0 <= fs)%Q -> (0 <= t)%Q -> Qtrunc (t * fs) = col fs t /\ 0 <= col fs t.
Proof.
  intros fs t F T. assert (H : (0 <= t * fs)%Q) by (apply Qmult_le_0_compat; auto). split; [apply trunc_floor; exact H|]. unfold col. change 0 with (Qfloor 0). apply Qfloor_resp_le. exact H.
Qed.
Definition rung (fs : Q) (l : list roll_note) (p t : Z) (v : Z) : Z :=
  fold_left (fun v n => if rn_pitch n =? p then (if col fs (rn_end n) =? t then 0 else if col fs (rn_start n) =? t then 1 else v) else v) l v.
Lemma rung_app : forall fs l k p t v, rung fs (l ++ k) p t v = rung fs k p t (rung fs l p t v).
Proof. intros. unfold rung. apply fold_left_app. Qed.
Lemma rung_spec : forall fs l p t, (rung fs l p t 0 = 1 /\ rings fs l p t) \/ (rung fs l p t 0 = 0 /\ ~ rings fs l p t).
Proof.
  intros fs l p t. induction l as [|n l IH] using rev_ind.
  - right. split; [reflexivity|]. intros [l1 [n [l2 [E _]]]]. destruct l1; discriminate.
  - rewrite rung_app. cbn [rung fold_left].
    assert (UP : rn_pitch n <> p \/ col fs (rn_end n) <> t -> rings fs l p t -> rings fs (l ++ [n]) p t).
    { intros C [l1 [m [l2 [-> [P [S1 [E1 L]]]]]]]. exists l1, m, (l2 ++ [n]). rewrite <- app_assoc. split; [reflexivity|]. split; [exact P|]. split; [exact S1|]. split; [exact E1|]. intros q I Q. apply in_app_or in I as [I|[<-|[]]]; [auto|]. destruct C; [contradiction|auto]. }
    assert (DN : rn_pitch n <> p \/ col fs (rn_start n) <> t -> rings fs (l ++ [n]) p t -> rings fs l p t).
    { intros C [l1 [m [l2 [E [P [S1 [E1 L]]]]]]]. destruct l2 as [|z l2 _] using rev_ind.
      - apply app_inj_tail in E as [_ E]. subst m. destruct C; contradiction.
      - rewrite app_comm_cons, app_assoc in E. apply app_inj_tail in E as [-> ->]. exists l1, m, l2. split; [reflexivity|]. split; [exact P|]. split; [exact S1|]. split; [exact E1|]. intros q I Q. apply L; [apply in_or_app; auto|exact Q]. }
    destruct (Z.eqb_spec (rn_pitch n) p) as [EP|NP].
    + destruct (Z.eqb_spec (col fs (rn_end n)) t) as [EE|NE].
      * right. split; [reflexivity|]. intros [l1 [m [l2 [E [P [S1 [E1 L]]]]]]]. destruct l2 as [|z l2 _] using rev_ind.
        -- apply app_inj_tail in E as [_ E]. subst m. contradiction.
        -- rewrite app_comm_cons, app_assoc in E. apply app_inj_tail in E as [_ ->]. apply (L z); auto. apply in_or_app. right. left. auto.
      * destruct (Z.eqb_spec (col fs (rn_start n)) t) as [ES|NS].
        -- left. split; [reflexivity|]. exists l, n, []. split; [reflexivity|]. split; [exact EP|]. split; [exact ES|]. split; [exact NE|]. intros ? [].
        -- destruct IH as [[I1 I2]|[I1 I2]]; [left|right]; (split; [exact I1|]); [apply UP; auto|intros R; apply I2; apply DN; auto].
    + destruct IH as [[I1 I2]|[I1 I2]]; [left|right]; (split; [exact I1|]); [apply UP; auto|intros R; apply I2; apply DN; auto].
Qed.
Lemma roll_notes_ok : forall fs w l m, (0 <= fs)%Q -> shape 128 w m -> Forall good_note l -> (forall n, In n l -> col fs (rn_end n) < Z.of_nat w) ->
  exists m', roll_notes fs w m l = Ok m' /\ shape 128 w m' /\
    forall p t, 0 <= p < 128 -> 0 <= t < Z.of_nat w -> cell m' (Z.to_nat p) (Z.to_nat t) = rung fs l p t (cell m (Z.to_nat p) (Z.to_nat t)).
Proof.
  intros fs w l. induction l as [|n l IH]; intros m F SH G W; [exists m; split; [reflexivity|]; split; [exact SH|]; reflexivity|].
  inversion G as [|? ? [GP [GS GE]] G']; subst. cbn [roll_notes].
  destruct (trunc_col fs (rn_start n) F GS) as [T1 C1]. destruct (trunc_col fs (rn_end n) F ltac:(lra)) as [T2 C2]. rewrite T1, T2.
  assert (LE : col fs (rn_start n) <= col fs (rn_end n)) by (apply Qfloor_resp_le; apply Qmult_le_compat_r; auto). pose proof (W n (or_introl eq_refl)) as WN.
  unfold put_cell. rewrite !wrap_in by lia. cbn [bind].
  set (m2 := set2 (set2 m (Z.to_nat (rn_pitch n)) (Z.to_nat (col fs (rn_start n))) 1) (Z.to_nat (rn_pitch n)) (Z.to_nat (col fs (rn_end n))) 0).
  destruct (IH m2 F) as [m' [R [S2 C]]]; [apply shape_set, shape_set; auto|auto|intros; apply W; right; auto|]. exists m'. split; [exact R|]. split; [exact S2|].
  intros p t P T. rewrite C by auto. cbn [rung fold_left]. f_equal. unfold m2.
  rewrite (cell_set 128 w) by (try apply shape_set; auto; lia). rewrite (cell_set 128 w) by (auto; lia).
  assert (X : forall a b : Z, 0 <= a -> 0 <= b -> Nat.eqb (Z.to_nat b) (Z.to_nat a) = (a =? b)) by (intros a b A B; destruct (Z.eqb_spec a b), (Nat.eqb_spec (Z.to_nat b) (Z.to_nat a)); auto; lia).
  rewrite !X by lia. destruct (rn_pitch n =? p), (col fs (rn_end n) =? t), (col fs (rn_start n) =? t); reflexivity.
Qed.
Lemma fold_Qmaxb_ge : forall l t, (t <= fold_left Qmaxb l t)%Q /\ forall x, In x l -> (x <= fold_left Qmaxb l t)%Q.
Proof.
  induction l as [|a l IH]; intros t; [split; [apply Qle_refl|intros x []]|]. cbn [fold_left]. destruct (IH (Qmaxb t a)) as [A B]. assert (M1 : (t <= Qmaxb t a)%Q) by (destruct (Qmaxb_spec t a) as [[M ->]|[M ->]]; lra). assert (M2 : (a <= Qmaxb t a)%Q) by (destruct (Qmaxb_spec t a) as [[M ->]|[M ->]]; lra). split; [apply (Qle_trans _ _ _ M1 A)|]. intros x [<-|I]; [apply (Qle_trans _ _ _ M2 A)|auto].
Qed.
Lemma end_time_ge : forall i n, In n (ri_notes i) -> (rn_end n <= end_time i)%Q.
Proof.
  intros i n I. unfold end_time. apply (in_map rn_end) in I. assert (J : In (rn_end n) (map rn_end (ri_notes i) ++ ri_times i)) by (apply in_or_app; auto). destruct (map rn_end (ri_notes i) ++ ri_times i) as [|t r]; [destruct J|].
  destruct (fold_Qmaxb_ge r t) as [A B]. destruct J as [->|J]; auto.
Qed.
Definition columns (fs : Q) (i : roll_inst) : Z := col fs (end_time i) + 1.
Lemma repeat_shape : forall h w, shape h w (repeat (repeat 0 w) h).
Proof. intros. split; [apply repeat_length|]. apply Forall_forall. intros x I. apply repeat_spec in I. subst. apply repeat_length. Qed.
Lemma repeat_cell : forall h w i j, cell (repeat (repeat 0 w) h) i j = 0.
Proof. intros. unfold cell. destruct (nth_in_or_default i (repeat (repeat 0 w) h) []) as [I|E]; [apply repeat_spec in I; rewrite I; apply nth_repeat|rewrite E; destruct j; reflexivity]. Qed.
Lemma roll_one_ok : forall fs i, (0 <= fs)%Q -> good_inst i -> exists m, roll_one fs i = Ok (Z.to_nat (columns fs i), m) /\ shape 128 (Z.to_nat (columns fs i)) m /\ 1 <= columns fs i /\
  forall p t, 0 <= p < 128 -> 0 <= t < columns fs i -> (cell m (Z.to_nat p) (Z.to_nat t) = 1 /\ rings fs (ri_notes i) p t) \/ (cell m (Z.to_nat p) (Z.to_nat t) = 0 /\ ~ rings fs (ri_notes i) p t).
Proof.
  intros fs i F [G E]. destruct (trunc_col fs (end_time i) F E) as [T C]. assert (W : Qtrunc (fs * end_time i) + 1 = columns fs i).
  { unfold columns. rewrite <- T. f_equal. rewrite !trunc_floor by (apply Qmult_le_0_compat; auto). apply Qfloor_comp. ring. }
  unfold roll_one. cbv zeta. rewrite W. assert (P : 1 <= columns fs i) by (unfold columns; lia). destruct (Z.ltb_spec (columns fs i) 0); [lia|].
  destruct (roll_notes_ok fs (Z.to_nat (columns fs i)) (ri_notes i) (repeat (repeat 0 (Z.to_nat (columns fs i))) 128) F) as [m [R [S1 H1]]]; auto.
  - apply repeat_shape.
  - intros n I. unfold columns. assert (col fs (rn_end n) <= col fs (end_time i)) by (apply Qfloor_resp_le, Qmult_le_compat_r; auto; apply end_time_ge; auto). lia.
  - rewrite R. cbn [bind]. exists m. split; [reflexivity|]. split; [exact S1|]. split; [exact P|]. intros p t A B. rewrite H1, repeat_cell by lia. apply rung_spec.
Qed.
(** Sums of matrices. *)
Lemma add_row_nth : forall a b j, nth j (add_row a b) 0 = if Nat.ltb j (List.length a) then nth j a 0 + nth j b 0 else 0.
Proof.
  induction a as [|x a IH]; intros [|y b] j; cbn [add_row List.length].
  - destruct j; reflexivity.
  - destruct j; reflexivity.
  - destruct j; cbn [nth]; [cbn; lia|]. destruct (Nat.ltb_spec (S j) (S (List.length a))); [lia|apply nth_overflow; lia].
  - destruct j; cbn [nth]; [reflexivity|]. rewrite IH. destruct (Nat.ltb_spec j (List.length a)), (Nat.ltb_spec (S j) (S (List.length a))); try lia; reflexivity.
Qed.
Lemma add_row_len : forall a b, List.length (add_row a b) = List.length a.
Proof. induction a as [|x a IH]; intros [|y b]; cbn; auto. Qed.
Lemma add_rows_shape : forall h w a b, shape h w a -> shape h w (add_rows a b).
Proof.
  intros h w a b [A B]. split.
  - rewrite <- A. clear. revert b. induction a as [|x a IH]; intros [|y b]; cbn; auto.
  - clear A. revert b. induction B as [|x a E B IH]; intros [|y b]; cbn; constructor; auto. rewrite add_row_len. auto.
Qed.
Lemma add_rows_cell : forall h w a b i j, shape h w a -> (i < h)%nat -> (j < w)%nat -> cell (add_rows a b) i j = cell a i j + cell b i j.
Proof.
  intros h w a b i j [A B] I J. subst h. revert b i I. induction B as [|x a E B IH]; intros [|y b] i I; cbn [add_rows List.length] in *; try lia.
  - unfold cell. destruct i; cbn; destruct j; lia.
  - unfold cell in *. destruct i; cbn [nth]; [|apply IH; lia]. rewrite add_row_nth. destruct (Nat.ltb_spec j (List.length x)); [reflexivity|lia].
Qed.
Lemma cell_out : forall h w m i j, shape h w m -> (w <= j)%nat -> cell m i j = 0.
Proof. intros h w m i j [A B] J. unfold cell. destruct (nth_in_or_default i m []) as [I|E]; [rewrite Forall_forall in B; apply nth_overflow; rewrite B; auto|rewrite E; destruct j; reflexivity]. Qed.
Lemma clip_cell : forall m i j, cell (map (map clip1) m) i j = clip1 (cell m i j).
Proof.
  intros m i j. unfold cell. change (nth i (map (map clip1) m) []) with (nth i (map (map clip1) m) (map clip1 [])). rewrite (map_nth (map clip1)). change 0 with (clip1 0) at 1. rewrite (map_nth clip1). reflexivity.
Qed.
Lemma clip_shape : forall h w m, shape h w m -> shape h w (map (map clip1) m).
Proof. intros h w m [A B]. split; [rewrite map_length; auto|]. apply Forall_forall. intros x I. apply in_map_iff in I as [r [<- I]]. rewrite map_length. rewrite Forall_forall in B. auto. Qed.

Lemma rolls_ok : forall fs l, (0 <= fs)%Q -> Forall good_inst l -> exists os, rolls fs l = Ok os /\ map fst os = map (fun i => Z.to_nat (columns fs i)) l /\
  Forall2 (fun i o => shape 128 (Z.to_nat (columns fs i)) (snd o) /\ forall p t, 0 <= p < 128 -> 0 <= t < columns fs i -> (cell (snd o) (Z.to_nat p) (Z.to_nat t) = 1 /\ rings fs (ri_notes i) p t) \/ (cell (snd o) (Z.to_nat p) (Z.to_nat t) = 0 /\ ~ rings fs (ri_notes i) p t)) l os.
Proof.
  intros fs l F G. induction G as [|i l Gi G IH]; [exists []; split; [reflexivity|split; [reflexivity|constructor]]|]. destruct IH as [os [R [M H]]]. destruct (roll_one_ok fs i F Gi) as [m [R1 [S1 [P1 C1]]]].
  cbn [rolls]. rewrite R1, R. cbn [bind]. eexists. split; [reflexivity|]. split; [cbn; rewrite M; reflexivity|]. constructor; auto.
Qed.
Lemma max_ge : forall l a, (a <= fold_left Nat.max l a)%nat /\ forall x, In x l -> (x <= fold_left Nat.max l a)%nat.
Proof. induction l as [|b l IH]; intros a; [split; [cbn; lia|intros x []]|]. cbn [fold_left]. destruct (IH (Nat.max a b)) as [A B]. split; [lia|]. intros x [<-|I]; [lia|auto]. Qed.
Lemma max_in : forall l a, fold_left Nat.max l a = a \/ In (fold_left Nat.max l a) l.
Proof. induction l as [|b l IH]; intros a; [auto|]. cbn [fold_left]. destruct (IH (Nat.max a b)) as [E|I]; [|right; right; auto]. destruct (Nat.max_spec a b) as [[_ M]|[_ M]]; rewrite M in *; [right; left; auto|left; auto]. Qed.
Lemma rings_last : forall fs i p t, (0 <= fs)%Q -> good_inst i -> rings fs (ri_notes i) p t -> 0 <= t < columns fs i.
Proof.
  intros fs i p t F [G E] [l1 [n [l2 [EQ [P [S1 _]]]]]]. assert (I : In n (ri_notes i)) by (rewrite EQ; apply in_or_app; right; left; auto). rewrite Forall_forall in G. destruct (G n I) as [_ [GS GE]].
  destruct (trunc_col fs (rn_start n) F GS) as [_ C]. split; [lia|]. unfold columns. assert (col fs (rn_start n) <= col fs (end_time i)); [|lia]. apply Qfloor_resp_le, Qmult_le_compat_r; auto. apply (Qle_trans _ _ _ GE). apply end_time_ge; auto.
Qed.
Lemma roll_ok : forall fs l, (0 <= fs)%Q -> l <> [] -> Forall good_inst l ->
  exists m w, one_hot_roll l fs = Ok m /\ List.length m = 128%nat /\ (forall r, In r m -> Z.of_nat (List.length r) = w) /\
    (forall i, In i l -> col fs (end_time i) + 1 <= w) /\ (exists i, In i l /\ col fs (end_time i) + 1 = w) /\
    forall p t, 0 <= p < 128 -> 0 <= t < w -> let v := nth (Z.to_nat t) (nth (Z.to_nat p) m []) 0 in
      (v = 1 /\ exists i, In i l /\ rings fs (ri_notes i) p t) \/ (v = 0 /\ forall i, In i l -> ~ rings fs (ri_notes i) p t).
Proof.
  intros fs l F NE G. destruct (rolls_ok fs l F G) as [os [R [M H]]]. unfold one_hot_roll. rewrite R. cbn [bind]. destruct os as [|o os']; [inversion H; subst; contradiction|]. set (os := o :: os') in *.
  set (w := fold_left Nat.max (map fst os) 0%nat).
  assert (POS : forall i, In i l -> 1 <= columns fs i) by (intros i I; rewrite Forall_forall in G; destruct (roll_one_ok fs i F (G i I)) as [_ [_ [_ [P _]]]]; exact P).
  assert (W1 : forall i, In i l -> columns fs i <= Z.of_nat w). { intros i I. pose proof (POS i I). destruct (max_ge (map fst os) 0%nat) as [_ B]. specialize (B (Z.to_nat (columns fs i))). fold w in B. assert (Z.to_nat (columns fs i) <= w)%nat; [|lia]. apply B. rewrite M. apply (in_map (fun i => Z.to_nat (columns fs i))). auto. }
  assert (W2 : exists i, In i l /\ columns fs i = Z.of_nat w).
  { destruct (max_in (map fst os) 0%nat) as [E|I].
    - fold w in E. destruct l as [|i l']; [contradiction|]. pose proof (W1 i (or_introl eq_refl)). pose proof (POS i (or_introl eq_refl)). lia.
    - fold w in I. rewrite M in I. apply in_map_iff in I as [i [E I]]. exists i. split; auto. pose proof (POS i I). lia. }
  assert (SUM : forall (ks : list (nat * list (list Z))) ls acc, shape 128 w acc -> Forall2 (fun i o => shape 128 (Z.to_nat (columns fs i)) (snd o) /\ forall p t, 0 <= p < 128 -> 0 <= t < columns fs i -> (cell (snd o) (Z.to_nat p) (Z.to_nat t) = 1 /\ rings fs (ri_notes i) p t) \/ (cell (snd o) (Z.to_nat p) (Z.to_nat t) = 0 /\ ~ rings fs (ri_notes i) p t)) ls ks ->
     (forall i, In i ls -> good_inst i) ->
     shape 128 w (fold_left add_rows (map snd ks) acc) /\ forall p t, 0 <= p < 128 -> 0 <= t < Z.of_nat w -> 0 <= cell acc (Z.to_nat p) (Z.to_nat t) ->
       let v := cell (fold_left add_rows (map snd ks) acc) (Z.to_nat p) (Z.to_nat t) in
       (cell acc (Z.to_nat p) (Z.to_nat t) + 1 <= v /\ exists i, In i ls /\ rings fs (ri_notes i) p t) \/ (v = cell acc (Z.to_nat p) (Z.to_nat t) /\ forall i, In i ls -> ~ rings fs (ri_notes i) p t)).
  { clear - F. intros ks ls acc SH F2. revert acc SH. induction F2 as [|i k ls ks [S1 C1] F2 IH]; intros acc SH GI.
    - cbn. split; [exact SH|]. intros p t P T N. right. split; [reflexivity|]. intros ? [].
    - cbn [map fold_left]. destruct (IH (add_rows acc (snd k))) as [S2 C2]; [apply add_rows_shape; auto|intros; apply GI; right; auto|]. split; [exact S2|]. intros p t P T N. set (v := cell (fold_left add_rows (map snd ks) (add_rows acc (snd k))) (Z.to_nat p) (Z.to_nat t)).
      assert (A : cell (add_rows acc (snd k)) (Z.to_nat p) (Z.to_nat t) = cell acc (Z.to_nat p) (Z.to_nat t) + cell (snd k) (Z.to_nat p) (Z.to_nat t)) by (apply (add_rows_cell 128 w); auto; lia).
      assert (B : (cell (snd k) (Z.to_nat p) (Z.to_nat t) = 1 /\ rings fs (ri_notes i) p t) \/ (cell (snd k) (Z.to_nat p) (Z.to_nat t) = 0 /\ ~ rings fs (ri_notes i) p t)).
      { destruct (Z_lt_le_dec t (columns fs i)) as [L|L]; [apply C1; auto; lia|]. right. split; [apply (cell_out 128 (Z.to_nat (columns fs i))); auto; lia|]. intros X. apply rings_last in X; auto; [lia|]. apply GI. left. auto. }
      specialize (C2 p t P T). rewrite A in C2. cbv zeta in C2. fold v in C2. destruct B as [[B1 B2]|[B1 B2]]; rewrite B1 in C2; destruct C2 as [[D1 D2]|[D1 D2]]; try lia.
      + left. split; [lia|]. exists i. split; [left; auto|auto].
      + left. split; [lia|]. exists i. split; [left; auto|auto].
      + left. split; [lia|]. destruct D2 as [j [J1 J2]]. exists j. split; [right; auto|auto].
      + right. split; [lia|]. intros j [<-|J]; auto. }
  destruct (SUM os l (repeat (repeat 0 w) 128) (repeat_shape 128 w) H) as [S1 C1]; [rewrite Forall_forall in G; auto|]. exists (map (map clip1) (fold_left add_rows (map snd os) (repeat (repeat 0 w) 128))), (Z.of_nat w).
  split; [reflexivity|]. apply clip_shape in S1 as S2. destruct S2 as [S3 S4]. split; [exact S3|]. split; [intros r I; rewrite Forall_forall in S4; rewrite S4; auto|]. split; [exact W1|]. split; [exact W2|].
  intros p t P T. specialize (C1 p t P T). rewrite repeat_cell in C1. specialize (C1 ltac:(lia)). cbv zeta in C1 |- *.
  change (nth (Z.to_nat t) (nth (Z.to_nat p) (map (map clip1) (fold_left add_rows (map snd os) (repeat (repeat 0 w) 128))) []) 0) with (cell (map (map clip1) (fold_left add_rows (map snd os) (repeat (repeat 0 w) 128))) (Z.to_nat p) (Z.to_nat t)). rewrite clip_cell.
  destruct C1 as [[D1 D2]|[D1 D2]]; [left|right]; (split; [unfold clip1; lia|exact D2]).
Qed.
