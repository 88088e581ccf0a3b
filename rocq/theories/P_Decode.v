(** Properties C190 and C191: class numbers lead back to notes; building the same again.
    [b_run e b_new ops] is a builder after the calls [ops]; [graphs_next … GStart] starts its generator of graphs;
    [notes_of] is index_to_hash followed by hash_to_notes; [reverse_ok] is the check of ngc_small_graph.py. *)
From Coq Require Import Sorted Permutation Lia.
From Verif Require Import PyBase L_Base M_Note M_Events M_Seq S_Seq M_Chord M_Graph S_Graph L_Chord L_Graph L_Graph2 L_Graph3 L_Graph7 M_Checker S_Decode L_Decode L_Decode2 L_Checker P_Graph.
Open Scope Z_scope.

(** C190: of a graph the builder yields after any calls, each class number leads - now and after any further calls -
    to the notes that the feature of its node shows, provided different sets of pitches hash differently. *)
Theorem C190_decode : forall e (K : config -> Prop) size P ops more skip p b' s', env_ok e -> no_collisions e size P -> Forall (builds_with K size P) (ops ++ more) ->
  graphs_next (b_run e b_new ops) skip false GStart = (Ok p, b', s') ->
  exists is, p_y p = Some is /\ Forall2 (decodes K (b_run e b' more)) is (g_nodes (p_graph p)).
Proof. exact next_decodes. Qed.
Print Assumptions C190_decode.
(** C190: so with plain features (rows of pitches) the reverse check succeeds at a node exactly if it appends enough
    zeros for the row. *)
Theorem C190_reverse : forall e size P ops more skip p b' s' zeros, env_ok e -> no_collisions e size P ->
  Forall (builds_with (fun c => c_type c = TensorAttr /\ c_velocity c = false /\ c_size c = size) size P) (ops ++ more) ->
  graphs_next (b_run e b_new ops) skip false GStart = (Ok p, b', s') ->
  exists is, p_y p = Some is /\ Forall2 (fun i n => exists notes r l, notes_of (b_run e b' more) i = Some notes /\ snd n = NChord (Vec r) l (fst n) /\ Z.of_nat (List.length r) = size /\
    (reverse_ok zeros (Z.to_nat size) notes r = true <-> size <= Z.of_nat (List.length notes) + Z.of_nat zeros)) is (g_nodes (p_graph p)).
Proof.
  intros e size P ops more skip p b' s' zeros EO NC F H. destruct (next_decodes e _ size P ops more skip p b' s' EO NC F H) as (is & Y & D). exists is. split; [exact Y|].
  clear - D. induction D as [|i n is ns D _ IH]; constructor; auto. destruct D as (notes & x & l & c & group & chunk & D1 & D2 & (K1 & K2 & K3) & D4 & D5 & (tops & _ & FT)).
  rewrite K1, K2 in FT. destruct FT as (r & -> & RL & RN). exists notes, r, l. split; [exact D1|]. split; [exact D2|]. split; [lia|].
  rewrite (reverse_spec zeros (Z.to_nat size) notes chunk r D4); [|lia|lia|exact RN]. pose proof (Permutation_length D4). lia.
Qed.
Print Assumptions C190_reverse.
(** Hash functions without collisions: a bit for each pitch. *)
Definition e_bits : env := mkEnv py_hash (fun l => fold_right (fun p a => Z.lor (2 ^ p) a) 0 l) (fun l => l).
Lemma bits_spec : forall l i, Forall (fun p => 0 <= p) l -> 0 <= i -> Z.testbit (e_shash e_bits l) i = if in_dec Z.eq_dec i l then true else false.
Proof.
  intros l i F I. induction F as [|p l Pp _ IH]; cbn [e_shash e_bits fold_right]; [apply Z.bits_0|]. cbn [e_shash e_bits] in IH. rewrite Z.lor_spec, IH, Z.pow2_bits_eqb by exact Pp.
  destruct (Z.eqb_spec p i) as [->|NE]; destruct (in_dec Z.eq_dec i (_ :: l)) as [X|X]; destruct (in_dec Z.eq_dec i l) as [Y|Y]; cbn; auto; exfalso; cbn [In] in X; intuition.
Qed.
Example e_bits_ok : env_ok e_bits.
Proof.
  split; [exact py_hash_eq|]. split; [intros; apply Permutation_refl|]. intros a b P. cbn. induction P as [| |x y l|]; cbn; try congruence. rewrite !Z.lor_assoc. f_equal. apply Z.lor_comm.
Qed.
Example e_bits_no_collisions : forall size, no_collisions e_bits size (fun p => 0 <= p).
Proof.
  intros size a b (NA & _ & FA) (NB & _ & FB) E. apply NoDup_Permutation; auto. intros x. rewrite Forall_forall in FA, FB. split; intros I.
  - assert (T : Z.testbit (e_shash e_bits a) x = true) by (rewrite bits_spec; [destruct (in_dec Z.eq_dec x a); tauto|apply Forall_forall; exact FA|auto]).
    rewrite E, bits_spec in T by (try (apply Forall_forall; exact FB); auto). destruct (in_dec Z.eq_dec x b); [auto|discriminate].
  - assert (T : Z.testbit (e_shash e_bits b) x = true) by (rewrite bits_spec; [destruct (in_dec Z.eq_dec x b); tauto|apply Forall_forall; exact FB|auto]).
    rewrite <- E, bits_spec in T by (try (apply Forall_forall; exact FA); auto). destruct (in_dec Z.eq_dec x a); [auto|discriminate].
Qed.
(** A scale in chords of at most two pitches; one zero is enough here, none is not. *)
Example C190_case : let ops := [OBuild (fun _ => None) [s_ex] (mkC 2 8 TensorAttr false (1 # 2) false) true] in
  Forall (builds_with (fun c => c_type c = TensorAttr /\ c_velocity c = false /\ c_size c = 2) 2 (fun p => 0 <= p)) ops /\
  match graphs_next (b_run e_bits b_new ops) false false GStart with
  | (Ok p, b', _) => p_y p = Some [1; 2; 3] /\ map (notes_of b') [1; 2; 3] = [Some [60; 64]; Some [67]; Some [69]] /\ reverse_ok 1 2 [67] [67; 0] = true /\ reverse_ok 0 2 [67] [67; 0] = false
  | _ => False
  end.
Proof.
  cbv zeta. split; [|vm_compute; auto]. constructor; [|constructor]. cbn [builds_with]. split; [split; [reflexivity|split; reflexivity]|]. split; [apply Z.le_refl|]. constructor; [|constructor].
  intros n N. cbn in N. repeat (destruct N as [<-|N]; [vm_compute; discriminate|]). destruct N.
Qed.

(** C191: building the same tracks again on the same builder has the same outcome, leaves every hash, number and
    chord as it is, and appends the graphs of the first time once more. *)
Theorem C191_again : forall e conv b l c per r b1, build e conv b l c per = (r, b1) ->
  exists b2 gs, build e conv b1 l c per = (r, b2) /\ same_maps b1 b2 /\
    b_sub b1 = b_sub b ++ gs /\ b_sub b2 = b_sub b ++ gs ++ gs /\
    b_pyg b1 = b_pyg b ++ map (fun g => mkP g None None) gs /\ b_pyg b2 = b_pyg b1 ++ map (fun g => mkP g None None) gs.
Proof.
  intros e conv b l c per r b1 H. destruct (build_log e conv l c per) as (r0 & lg & gs & E). rewrite E in H. injection H as <- <-.
  exists (keep_all (reg_all e (keep_all (reg_all e b lg) gs) lg) gs), gs. split; [apply E|].
  set (b0 := reg_all e b lg). assert (KR : reg_all e (keep_all b0 gs) lg = keep_all (reg_all e b0 lg) gs).
  { clearbody b0. clear. revert b0. unfold keep_all. induction gs as [|g gs IH]; intros b0; [reflexivity|]. cbn [fold_left]. rewrite IH, keep_reg_all. reflexivity. }
  rewrite KR. destruct (keep_all_fields gs b0) as (F1 & F2 & F3 & F4 & F5 & F6). destruct (keep_all_fields gs (reg_all e b0 lg)) as (G1 & G2 & G3 & G4 & G5 & G6).
  destruct (keep_all_fields gs (keep_all (reg_all e b0 lg) gs)) as (X1 & X2 & X3 & X4 & X5 & X6). destruct (reg_twice e lg b) as (T1 & T2 & T3 & T4). fold b0 in T1, T2, T3, T4.
  destruct (reg_all_fields e lg b) as [R1 R2]. fold b0 in R1, R2. destruct (reg_all_fields e lg b0) as [R3 R4].
  split.
  { unfold same_maps. rewrite X1, X2, X3, X4, G1, G2, G3, G4, F1, F2, F3, F4. auto. }
  split; [rewrite F6, R2; reflexivity|]. split; [rewrite X6, G6, R4, R2, <- app_assoc; reflexivity|]. split; [rewrite F5, R1; reflexivity|]. rewrite X5, G5, R3, F5. reflexivity.
Qed.
Print Assumptions C191_again.
(** C191: what a build does to the graphs kept does not depend on what the builder did before. *)
Theorem C191_independent : forall e conv l c per, exists r gs, forall b, fst (build e conv b l c per) = r /\ b_sub (snd (build e conv b l c per)) = b_sub b ++ gs /\
  b_pyg (snd (build e conv b l c per)) = b_pyg b ++ map (fun g => mkP g None None) gs.
Proof.
  intros e conv l c per. destruct (build_log e conv l c per) as (r0 & lg & gs & E). exists r0, gs. intros b. rewrite E. cbn [fst snd].
  destruct (keep_all_fields gs (reg_all e b lg)) as (_ & _ & _ & _ & F5 & F6). destruct (reg_all_fields e lg b) as [R1 R2]. rewrite F5, F6, R1, R2. auto.
Qed.
Print Assumptions C191_independent.
Example C191_case : let b1 := snd (build e_bits (fun _ => None) b_new [s_ex] cf true) in let b2 := snd (build e_bits (fun _ => None) b1 [s_ex] cf true) in
  List.length (b_sub b1) = 1%nat /\ List.length (b_sub b2) = 2%nat /\ b_h2i b2 = b_h2i b1 /\ b_h2i b1 <> [].
Proof. cbv zeta. split; [vm_compute; reflexivity|]. split; [vm_compute; reflexivity|]. split; [vm_compute; reflexivity|vm_compute; discriminate]. Qed.
