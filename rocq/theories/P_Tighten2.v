(** Further theorems about C110 (which error the conversion raises), C131 (a tolerance longer than the piece)
    and C177 (which error a constructor raises). *)
From Coq Require Import Sorted Permutation Qround Lia Lqa.
From Verif Require Import PyBase L_Base M_Note M_Events M_Chord M_Graph M_Dataset M_Train M_Beats S_Beats M_Tempi S_Tempi S_BeatStart L_Beats5 L_Tempi L_Tempi2 L_Tempi3.
Open Scope Z_scope.

(** C110: the conversion of node values raises KeyError without nodes; AttributeError if one of them is a
    tensor; and KeyError for numbers without an edge. *)
Theorem C110_errors : forall attrs edges weights,
  (attrs = [] -> convert attrs edges weights = Err KeyError) /\
  ((exists t, In (VTensor t) attrs) -> convert attrs edges weights = Err AttributeError) /\
  (attrs <> [] -> ~ (exists t, In (VTensor t) attrs) -> weights = [] -> convert attrs edges weights = Err KeyError).
Proof.
  intros attrs edges weights.
  assert (NT : (exists t, In (VTensor t) attrs) -> numbers attrs = None).
  { intros [t I]. induction attrs as [|v r IH]; [destruct I|]. cbn [numbers]. destruct I as [->|I]; [reflexivity|]. rewrite (IH I). destruct (number v); reflexivity. }
  assert (YT : ~ (exists t, In (VTensor t) attrs) -> exists qs, numbers attrs = Some qs).
  { clear NT. intros N. induction attrs as [|v r IH]; [exists []; reflexivity|]. cbn [numbers]. destruct IH as [qs ->]; [intros [t I]; apply N; exists t; simpl; auto|].
    destruct v as [t|q|z]; [exfalso; apply N; exists t; simpl; auto| |]; eexists; reflexivity. }
  unfold convert, node_column. split; [|split].
  - intros ->. reflexivity.
  - intros T. rewrite (NT T). destruct attrs as [|v r]; [destruct T as [t []]|]. destruct (forallb is_tensor (v :: r)); reflexivity.
  - intros NE N ->. destruct (YT N) as [qs E]. rewrite E. destruct attrs as [|v r]; [congruence|].
    replace (forallb is_tensor (v :: r)) with false; [reflexivity|]. symmetry. cbn [forallb]. destruct v as [t|q|z]; [exfalso; apply N; exists t; simpl; auto| |]; reflexivity.
Qed.
Print Assumptions C110_errors.
(** C110: a graph of merged nodes only, or without nodes, raises KeyError. *)
Theorem C110_merged : forall g, (forall k a, In (k, a) (g_nodes g) -> exists ns, a = NMerged ns) -> from_midi_networkx g = Err KeyError.
Proof.
  intros g H. unfold from_midi_networkx, same_keys. destruct (g_nodes g) as [|[k a] r] eqn:E; [reflexivity|].
  destruct (H k a (or_introl eq_refl)) as [ns ->].
  assert (F : forallb (fun kv : Z * nattr => match snd kv with NChord _ _ _ => false | NMerged _ => true end) r = true).
  { apply forallb_forall. intros [k' a'] I. destruct (H k' a' (or_intror I)) as [ns' ->]. reflexivity. }
  rewrite F. cbn [negb fold_right snd attr_of].
  assert (Z0 : fold_right (fun kv (l : list aval) => match attr_of (snd kv) with Some v => v :: l | None => l end) [] r = []).
  { clear E F. induction r as [|[k' a'] r IH]; [reflexivity|]. cbn [fold_right snd]. destruct (H k' a' ltac:(simpl; auto)) as [ns' ->]. cbn [attr_of]. apply IH.
    intros k0 a0 [I|I]; [injection I as <- <-; eauto|]. apply (H k0 a0). simpl. auto. }
  rewrite Z0. reflexivity.
Qed.
Print Assumptions C110_merged.
Example C110_errors_case : convert [VTensor (Vec [1]); VInt 2] [] [1] = Err AttributeError /\ convert [VInt 2] [] [] = Err KeyError /\
  from_midi_networkx (mkG [(1, NMerged [1]); (2, NMerged [2])] [((1, 2), 1)]) = Err KeyError.
Proof. vm_compute. auto. Qed.

(** C177: which error the minimal example raises: ValueError for a missing argument or a dataset that cannot be
    indexed; then AssertionError for a number that is not a positive int; then AttributeError for a list. *)
Theorem C177_errors : forall midi epochs batch,
  (midi = ANone \/ epochs = ANone \/ batch = ANone \/ (exists n, midi = AInt n) \/ midi = AOther -> construct_ngc midi epochs batch = Err ValueError) /\
  (midi = AData \/ midi = AList -> epochs <> ANone -> batch <> ANone ->
     ~ ((exists n, epochs = AInt n /\ 0 < n) /\ (exists n, batch = AInt n /\ 0 < n)) -> construct_ngc midi epochs batch = Err AssertionError) /\
  (forall n k, 0 < n -> 0 < k -> construct_ngc AList (AInt n) (AInt k) = Err AttributeError).
Proof.
  intros midi epochs batch. unfold construct_ngc, experiments_init. split; [|split].
  - intros [-> | [-> | [-> | [[n ->] | ->]]]]; try reflexivity; try destruct epochs; try destruct batch; try destruct midi; reflexivity.
  - intros M E B N. replace (is_none epochs) with false by (destruct epochs; congruence || reflexivity). replace (is_none batch) with false by (destruct batch; congruence || reflexivity).
    replace (is_none midi) with false by (destruct M as [-> | ->]; reflexivity). replace (indexable midi) with true by (destruct M as [-> | ->]; reflexivity). cbn [negb].
    destruct (positive_int batch) eqn:PB; [|reflexivity]. destruct (positive_int epochs) eqn:PE; [|reflexivity]. exfalso. apply N.
    destruct epochs as [|n| | |]; try discriminate. destruct batch as [|k| | |]; try discriminate. cbn in PB, PE. apply Z.ltb_lt in PB, PE. split; eexists; split; (reflexivity || assumption).
  - intros n k Hn Hk. cbn [is_none indexable negb positive_int dataset_attr]. rewrite (proj2 (Z.ltb_lt 0 n) Hn), (proj2 (Z.ltb_lt 0 k) Hk). reflexivity.
Qed.
Print Assumptions C177_errors.
(** C177: the same for the classes that pass the arguments in the wrong order. *)
Theorem C177_shifted : forall c epochs batch midi,
  construct c epochs batch midi = (match construct_ngc epochs batch midi with Ok _ => match c with Example2 | GinExample => Ok tt | _ => Err AttributeError end | Err x => Err x end).
Proof.
  intros c epochs batch midi. unfold construct, construct_ngc. destruct (experiments_init epochs batch midi) as [[]|x] eqn:E; cbn [bind]; [|reflexivity].
  assert (exists n, midi = AInt n) as [n ->].
  { unfold experiments_init in E. destruct (is_none batch), (is_none midi), (is_none epochs), (indexable epochs); cbn [negb] in E; try discriminate. destruct midi; cbn in E; try discriminate. eauto. }
  destruct c; reflexivity.
Qed.
Print Assumptions C177_shifted.
Example C177_errors_case : construct_ngc AData (AInt 5) ANone = Err ValueError /\ construct_ngc AData (AInt 0) (AInt 4) = Err AssertionError /\ construct_ngc AData (AInt 5) (AInt 4) = Ok tt /\
  construct Example2 AData ANone (AInt 3) = Err ValueError /\ construct Example2 AData AList (AInt 3) = Err AssertionError.
Proof. vm_compute. intuition. Qed.

Open Scope Q_scope.
(** C131: a tolerance that reaches more than two seconds beyond the end E of the piece raises ValueError. *)
Theorem C131_wide : forall m sigs others notes cand tol E, tempo_map m -> meters sigs -> clear_of_tempo m sigs ->
  notes <> [] -> (forall a, In a notes -> 0 <= bn_start a < bn_end a /\ In (bn_end a) others) -> (0 <= cand)%Z ->
  (forall x, In x others -> x <= E) -> (forall s, In s sigs -> ts_time s <= E) -> (forall c, In c m -> fst c <= E) -> E + 2 <= tol ->
  exists N, forall fuel, (N <= fuel)%nat -> estimate_beat_start fuel m sigs others notes cand tol = Err ValueError.
Proof.
  intros m sigs others notes cand tol E T M C NN HN HC E1 E2 E3 TE.
  set (l := sort_notes notes). assert (P : Permutation l notes) by (apply Permutation_sym, py_sort_perm).
  set (e := piece_end m (sort_sigs sigs) others). set (starts := pick cand (Z.of_nat (List.length l)) 0 None l).
  assert (ES : starts = firstn (Z.to_nat (cand + 1)) (fresh (sort_q (map bn_start notes)))).
  { subst starts. rewrite pick_fresh; [|lia|lia|apply sort_notes_sorted].
    rewrite Z.sub_0_r. subst l. unfold sort_notes, sort_q. rewrite (map_py_sort _ _ bn_start Qltb). reflexivity. }
  destruct (piece_end_spec m (sort_sigs sigs) others (proj1 T)) as [X [E0 _]]. fold e in X, E0.
  assert (EE : e <= E).
  { destruct X as [X|[[s [X <-]]|[c [X <-]]]]; auto. apply E2. eapply Permutation_in; [|exact X]. unfold sort_sigs. symmetry. apply py_sort_perm. }
  assert (RG : forall s, In s starts -> 0 <= s < e).
  { rewrite ES. intros s Hs. apply firstn_in2, fresh_in in Hs. apply (Permutation_in _ (sort_q_perm _)) in Hs. apply in_map_iff in Hs. destruct Hs as [a [<- K1]].
    destruct (HN a K1) as [K2 K3]. specialize (E0 _ K3). lra. }
  assert (NE : starts <> []).
  { rewrite ES. destruct (Z.to_nat (cand + 1)) as [|k] eqn:EK; [lia|].
    destruct (sort_q (map bn_start notes)) as [|x r] eqn:EQ; [|discriminate].
    pose proof (sort_q_perm (map bn_start notes)) as K. rewrite EQ in K. apply Permutation_nil, map_eq_nil in K. congruence. }
  assert (EP : 0 <= e). { destruct starts as [|s r]; [congruence|]. destruct (RG s (or_introl eq_refl)). lra. }
  destruct (beats_all m sigs others starts T M C RG) as [N [bs [F A]]]. exists N. intros fuel L.
  rewrite ebs_unfold by auto. cbv zeta. fold l. fold starts. rewrite A by auto. cbn [bind].
  assert (NB : existsb (fun b0 : option (list Q) => match b0 with None | Some [] => true | _ => false end) (map Some bs) = false).
  { clear -F. induction F as [|s b starts bs [_ [H _]] F IH]; cbn [map existsb]; auto. rewrite IH. destruct b; [congruence|reflexivity]. }
  rewrite NB. fold e.
  assert (W : forall b, beat_score (Qtrunc (1000 * (e + 1))) tol l b = Err ValueError).
  { intro b. unfold beat_score. cbv zeta. replace (existsb (fun w => (Qtrunc (1000 * (e + 1)) <? snd w)%Z) (map (beat_window tol) (0 :: b))) with true; [reflexivity|].
    symmetry. cbn [map existsb]. apply Bool.orb_true_iff. left. apply Z.ltb_lt. unfold beat_window.
    replace (Qltb (0 - tol) 0) with true by (symmetry; apply Qltb_lt; lra). cbn [snd].
    rewrite (trunc_f (1000 * (e + 1)) (1000 * (e + 1))), (trunc_f ((0 + tol) * 1000) (1000 * tol)); try lra.
    pose proof (Qfloor_le (1000 * (e + 1))) as F1. pose proof (Qlt_floor (1000 * tol)) as F2.
    rewrite Zlt_Qlt. rewrite inject_Z_plus in F2. change (inject_Z 1) with 1 in F2. lra. }
  destruct bs as [|b bs]; [inversion F; subst; congruence|]. cbn [map all_ok]. rewrite W. reflexivity.
Qed.
Print Assumptions C131_wide.
Example C131_wide_case :
  let notes := [mkBN (1 # 4) (1 # 2) 20; mkBN 1 (3 # 2) 90; mkBN (3 # 2) 2 90] in
  estimate_beat_start 20 [(0, 120)] [] (map bn_end notes) notes 10 4 = Err ValueError.
Proof. vm_compute. reflexivity. Qed.
