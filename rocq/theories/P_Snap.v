(** Property C200: grouping the notes of a sequence into chords in double precision.
    [compute_data_f e s tol f] is MidiGraphBuilder.compute_data with tolerance_auto on the sequence [s], every
    operation rounded to a double; [tol] is the double numpy's percentile returned, [f] filter_single_notes;
    [in_key_order data] are the groups in the order build_sequence visits them. *)
From Coq Require Import Sorted Permutation QArith Qabs Lia Lqa.
From Verif Require Import PyBase L_Base M_Note M_Ticks M_Seq S_Seq M_Chord M_Graph S_Graph M_Float L_Float M_Snap S_Snap L_Chord L_Chord2 L_Chord3 L_Graph4 L_Graph10 L_Snap L_Graph7 P_Graph.
Open Scope Z_scope.

(** C200: the groups are the maximal sets of sounding notes whose adjusted starts hash equally; the
    adjusted start is within half the tolerance, half a hundredth and a rounding error of the start, and
    a later start is never adjusted to an earlier time. *)
Theorem C200_groups : forall e s tol f, (0 <= tol)%Q -> (forall n, In n (q_notes s) -> sounding n -> (0 <= n_start n)%Q) ->
  exists data lg at_,
    compute_data_f e s tol f = Ok (data, lg) /\
    groups_of (fun n => e_thash e (at_ (n_start n))) f (q_notes s) (in_key_order data) /\
    (forall x, (0 <= x)%Q -> (Qabs (at_ x - x) <= tol / 2 + (1 # 200) + (x + tol + 1) * (1 # 2 ^ 51))%Q) /\
    (forall x y, (0 <= x)%Q -> (x <= y)%Q -> (at_ x <= at_ y)%Q) /\
    (forall k g, selects (fun n => sounding n /\ e_thash e (at_ (n_start n)) = k) (q_notes s) g -> Z.of_nat (List.length g) <= lg) /\
    (lg = 0 \/ exists k g, selects (fun n => sounding n /\ e_thash e (at_ (n_start n)) = k) (q_notes s) g /\ Z.of_nat (List.length g) = lg).
Proof.
  intros e s tol f T H. destruct (compute_total_f e s tol f T H) as [data [lg [A [B [C D]]]]].
  exists data, lg, (snap tol). split; [exact A|]. split; [exact B|]. split; [intros; apply snap_near; auto|]. split; [intros; apply snap_mono; auto|]. split; [exact C|exact D].
Qed.
Print Assumptions C200_groups.
(** C200: a sounding note with a negative start is an assertion error. *)
Theorem C200_negative : forall e s tol f n, (0 <= tol)%Q -> In n (q_notes s) -> sounding n -> (n_start n < 0)%Q -> compute_data_f e s tol f = Err AssertionError.
Proof. intros e s tol f n T I SD N. unfold compute_data_f. rewrite (proj2 (group_total_f e tol (q_notes s) [] 0 T)) by eauto. reflexivity. Qed.
Print Assumptions C200_negative.

(** The adjusted starts of the sounding notes. *)
Definition adjusted_starts (s : seq) (tol : Q) (a : Q) : Prop := exists n, In n (q_notes s) /\ sounding n /\ a = snap tol (n_start n).
Lemma in_groups : forall e s tol f data lg g, (0 <= tol)%Q -> compute_data_f e s tol f = Ok (data, lg) -> In g (map snd data) ->
  (forall n, In n (q_notes s) -> sounding n -> (0 <= n_start n)%Q) /\ (forall n1 n2, In n1 g -> (In n2 g <-> In n2 (q_notes s) /\ sounding n2 /\ fkey e tol n2 = fkey e tol n1)).
Proof.
  intros e s tol f data lg g T C G.
  assert (N : forall n, In n (q_notes s) -> sounding n -> (0 <= n_start n)%Q).
  { intros n I SD. destruct (Qlt_le_dec (n_start n) 0) as [L|L]; auto. exfalso. rewrite (C200_negative e s tol f n T I SD L) in C. discriminate. }
  split; [exact N|]. intros n1 n2 I1. destruct (compute_total_f e s tol f T N) as [d [l [A [B _]]]].
  rewrite A in C. apply L_Note.Ok_inj in C. injection C as -> ->. eapply groups_same; [exact B| |exact I1].
  unfold in_key_order. eapply Permutation_in; [apply Permutation_map, py_sort_perm|exact G].
Qed.
(** C200: two notes of one group start within the tolerance, a hundredth and a rounding error of each other. *)
Theorem C200_close : forall e s tol f data lg g n1 n2, (0 <= tol)%Q -> compute_data_f e s tol f = Ok (data, lg) ->
  no_collision e (adjusted_starts s tol) -> In g (map snd data) -> In n1 g -> In n2 g ->
  (Qabs (n_start n1 - n_start n2) <= tol + (1 # 100) + (n_start n1 + n_start n2 + 2 * tol + 2) * (1 # 2 ^ 51))%Q.
Proof.
  intros e s tol f data lg g n1 n2 T C NC G I1 I2. destruct (in_groups e s tol f data lg g T C G) as [N M].
  pose proof (proj1 (M n1 n1 I1) I1) as [A1 [A2 _]]. pose proof (proj1 (M n1 n2 I1) I2) as [B1 [B2 B3]].
  assert (E : (snap tol (n_start n2) == snap tol (n_start n1))%Q) by (apply NC; [exists n2|exists n1|exact B3]; auto).
  pose proof (snap_near tol (n_start n1) T (N n1 A1 A2)) as X1. pose proof (snap_near tol (n_start n2) T (N n2 B1 B2)) as X2.
  set (a1 := snap tol (n_start n1)) in *. set (a2 := snap tol (n_start n2)) in *. clearbody a1 a2. set (s1 := n_start n1) in *. set (s2 := n_start n2) in *. clearbody s1 s2.
  apply Qabs_le_iff in X1. apply Qabs_le_iff in X2. apply Qabs_le_iff.
  assert (TT : (tol == tol / 2 + tol / 2)%Q) by field. set (h := (tol / 2)%Q) in *. clearbody h. lra.
Qed.
Print Assumptions C200_close.
(** C200: a group is an interval of time: a sounding note that starts between two notes of a group is in it;
    in particular notes that start at the same time are in the same group. *)
Theorem C200_interval : forall e s tol f data lg g n1 n2 n3, (0 <= tol)%Q -> env_ok e -> compute_data_f e s tol f = Ok (data, lg) ->
  no_collision e (adjusted_starts s tol) -> In g (map snd data) -> In n1 g -> In n3 g ->
  In n2 (q_notes s) -> sounding n2 -> (n_start n1 <= n_start n2)%Q -> (n_start n2 <= n_start n3)%Q -> In n2 g.
Proof.
  intros e s tol f data lg g n1 n2 n3 T EO C NC G I1 I3 I2 S2 L1 L2. destruct (in_groups e s tol f data lg g T C G) as [N M].
  pose proof (proj1 (M n1 n1 I1) I1) as [A1 [A2 _]]. pose proof (proj1 (M n1 n3 I1) I3) as [B1 [B2 B3]].
  assert (E : (snap tol (n_start n3) == snap tol (n_start n1))%Q) by (apply NC; [exists n3|exists n1|exact B3]; auto).
  apply (M n1 n2 I1). split; auto. split; auto. unfold fkey. apply (proj1 EO).
  pose proof (snap_mono tol _ _ T (N n1 A1 A2) L1) as X1. pose proof (snap_mono tol _ _ T (N n2 I2 S2) L2) as X2. lra.
Qed.
Print Assumptions C200_interval.

(** C200: when every sounding start is a double clear of the borders between two multiples of the tolerance,
    and its multiple clear of the borders between two hundredths, the result is that of exact arithmetic
    with the hash taken of the nearest double: the same groups, in the same order. *)
Theorem C200_agrees : forall e s t f, env_ok e -> let tol := compute_tolerance s 95 in
  (forall n, In n (q_notes s) -> sounding n -> is_double (n_start n) /\ ((0 < tol)%Q -> clear tol (n_start n))) ->
  compute_data_f e s tol f = compute_data (in_doubles e) s t f true 2 /\ env_ok (in_doubles e).
Proof.
  intros e s t f EO tol H. split; [|apply in_doubles_ok; [exact EO|exact fl_m]].
  unfold compute_data_f, compute_data. cbv zeta. fold tol. rewrite (group_agree e tol (q_notes s) [] 0 EO).
  - reflexivity.
  - unfold tol. apply tolerance_nonneg; discriminate.
  - intros n I SD _. apply H; auto.
Qed.
Print Assumptions C200_agrees.
(** C200: without the clearance the two differ: at tolerance 1/10 the starts 0.75 and 0.8 (as doubles) form a
    group, exactly they do not: the quotient 7.4999... is rounded to 7.5. *)
Definition s_tie : seq := sq [nt 60 100 (fl (3 # 4)); nt 64 100 (fl (8 # 10))].
Example C200_rounding :
  map (fun kv => map n_pitch (snd kv)) (match compute_data_f e_ex s_tie (fl (1 # 10)) false with Ok (d, _) => d | Err _ => [] end) = [[60; 64]] /\
  map (fun kv => map n_pitch (snd kv)) (match group_notes e_ex (fl (1 # 10)) true 2 [] 0 (q_notes s_tie) with Ok (d, _) => d | Err _ => [] end) = [[60]; [64]].
Proof. vm_compute. split; reflexivity. Qed.
(** C200, a concrete case: starts that are a few milliseconds apart, tolerance 1/4; the hypotheses hold. *)
Definition s_snap : seq := sq [nt 60 100 0; nt 64 100 (1 # 128); nt 67 0 (1 # 64); nt 69 100 (1 # 4); nt 72 100 (33 # 128)].
Example C200_case : env_ok e_ex /\ no_collision e_ex (adjusted_starts s_snap (1 # 4)) /\
  map (fun kv => map n_pitch (snd kv)) (match compute_data_f e_ex s_snap (1 # 4) true with Ok (d, _) => d | Err _ => [] end) = [[60; 64]; [69; 72]] /\
  (forall n, In n (q_notes s_snap) -> is_double (n_start n)).
Proof.
  split; [exact e_ex_ok|]. split; [|split; [vm_compute; reflexivity|]].
  - assert (V : forall a, adjusted_starts s_snap (1 # 4) a -> (a == 0)%Q \/ (a == 1 # 4)%Q).
    { intros a [n [I [_ ->]]]. cbn in I. destruct I as [<-|[<-|[<-|[<-|[<-|[]]]]]]; vm_compute; auto. }
    assert (H1 : py_hash 0 <> py_hash (1 # 4)) by (vm_compute; discriminate).
    intros a b A B H. cbn in H. destruct (V a A) as [EA|EA], (V b B) as [EB|EB]; try lra; exfalso;
      rewrite (py_hash_eq _ _ EA), (py_hash_eq _ _ EB) in H; congruence.
  - intros n I. cbn in I. destruct I as [<-|[<-|[<-|[<-|[<-|[]]]]]]; vm_compute; reflexivity.
Qed.
(** C200, a concrete case of the clearance: starts 0, 1, 2, 3 with the automatic tolerance 1. *)
Example C200_clear : (compute_tolerance s_ex 95 == 1)%Q /\ (forall n, In n (q_notes s_ex) -> is_double (n_start n) /\ clear (compute_tolerance s_ex 95) (n_start n)).
Proof.
  assert (OH : forall z, 0 <= z <= 1000 -> off_half (inject_Z z)).
  { intros z Z1 j. assert (A : (inject_Z z * (1 # 2 ^ 53) < 1 # 4)%Q).
    { unfold Qlt, Qmult, inject_Z. cbn [Qnum Qden]. rewrite Pos.mul_1_l. lia. }
    eapply Qlt_le_trans; [exact A|]. destruct (Z_le_gt_dec z j) as [L|L].
    - rewrite Zle_Qle in L. rewrite Qabs_neg; lra.
    - assert (L' : (inject_Z (j + 1) <= inject_Z z)%Q) by (rewrite <- Zle_Qle; lia). rewrite inject_Z_plus in L'. change (inject_Z 1) with 1%Q in L'. rewrite Qabs_pos; lra. }
  assert (TE : (compute_tolerance s_ex 95 == 1)%Q) by (vm_compute; reflexivity). set (tol := compute_tolerance s_ex 95) in *. clearbody tol.
  assert (CL : forall z, 0 <= z <= 10 -> clear tol (inject_Z z)).
  { intros z Z1. assert (Q1 : (inject_Z z / tol == inject_Z z)%Q) by (rewrite TE; field). split.
    - intros j. rewrite Q1. apply OH. lia.
    - intros m [H _]. rewrite Q1 in H. assert (m = z) as ->.
      { apply Qabs_le_iff in H. assert (X : (inject_Z m < inject_Z (z + 1))%Q) by (rewrite inject_Z_plus; change (inject_Z 1) with 1%Q; lra).
        assert (Y : (inject_Z z < inject_Z (m + 1))%Q) by (rewrite inject_Z_plus; change (inject_Z 1) with 1%Q; lra). rewrite <- Zlt_Qlt in X, Y. lia. }
      intros j. assert (E : (inject_Z z * tol * 100 == inject_Z (z * 100))%Q) by (rewrite TE, inject_Z_mult; change (inject_Z 100) with 100%Q; ring). rewrite E. apply OH. lia. }
  split; [exact TE|]. intros n I. cbn in I.
  destruct I as [<-|[<-|[<-|[<-|[<-|[<-|[<-|[<-|[]]]]]]]]]; (split; [vm_compute; reflexivity|]); cbn [nt n_start].
  - apply (CL 0); lia. - apply (CL 0); lia. - apply (CL 0); lia. - apply (CL 1); lia. - apply (CL 2); lia. - apply (CL 2); lia. - apply (CL 2); lia. - apply (CL 3); lia.
Qed.
