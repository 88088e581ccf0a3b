(** The resolution of an object read from a file. *)
From Coq Require Import Lia Lqa Permutation Sorted.
From Verif Require Import L_Reader2 PyBase M_SortedDict M_Note M_Events M_Seq M_Seqs M_Reader S_Seq S_Reader L_Base L_Sigs L_Note L_Seq L_SortedDict L_Seqs L_Reader.
Open Scope Z_scope.

Lemma read_res : forall f, file_ok f -> forall so, read f = Ok so -> m_res (so_ms so) = mf_res f.
Proof.
  intros f [F1 [F2 [F3 [F4 [F5 F6]]]]]. intros so H. unfold read in H.
  destruct (read_keys_ok (mf_keys f) (sig_default (0, false))) as [ks K]; [discriminate|auto|]. rewrite K in H. cbn [bind] in H.
  destruct (read_tempos_ok (mf_res f) (mf_tempos f) (sig_default (inject_Z DEFAULT_QPM))) as [ts T]; [auto|discriminate|auto|]. rewrite T in H. cbn [bind] in H.
  destruct (read_times_ok (mf_times f) (sig_default (4, 4))) as [tm [M [M1 M2]]]; [discriminate| |auto|].
  { intros x [<-|[]]. unfold pow_ok. cbn. split; [lia|exists 2; cbn; lia]. }
  rewrite M in H. cbn [bind] in H. unfold read_notes in H. rewrite enumerate_number in H.
  destruct (read_notes_ok tm (mf_insts f) [] (ms_empty (mf_res f)) 0%Q) as [s [total [N [TR [MR [T0 TOK]]]]]]; auto.
  { split; [|split; [|split]].
    - unfold tinv, ms_empty. cbn. apply inv_empty.
    - intros j. cbn [List.length Z.of_nat]. replace ((0 <=? j) && (j <? 0)) with false; auto.
      symmetry. apply andb_false_iff. destruct (Z.leb_spec 0 j); auto. right. apply Z.ltb_ge. lia.
    - intros j Hj. cbn in Hj. lia.
    - reflexivity. }
  { lra. } { apply tot_zero. }
  cbn [List.length Z.of_nat] in N. change (fun id i st => each (read_note tm id i) st (ri_notes i)) with (fun (id : Z) (i : rinst) (st : mseqs * Q) => each (read_note tm id i) st (ri_notes i)) in N.
  rewrite N in H. cbn [app] in *. cbn [m_res ms_empty] in MR, TR.
  assert (FE : file_end f total) by (apply tot_file_end; auto).
  unfold read_bends, read_ctrl in H. rewrite enumerate_number in H.
  edestruct (ctrl_ok (fun id k i s => each (read_bend total id k i) s (ri_bends i)) (fun k i q q' => bends_loop_post total k i (ri_bends i) q q') (mf_insts f) [] s) with (2 := F5) (3 := F6) (4 := TR) as [s1 [B1 [B2 B3]]].
  { intros k i s0 q Hk R I. destruct I as [I1 [I2 [I3 I4]]]. apply bends_loop; auto. }
  cbn [List.length Z.of_nat app] in B1, B3. rewrite B1 in H.
  unfold read_ccs, read_ctrl in H. rewrite enumerate_number in H.
  edestruct (ctrl_ok (fun id k i s => each (read_cc total id k i) s (ri_ccs i)) (fun k i q q' => ccs_loop_post total k i (ri_ccs i) q q') (mf_insts f) [] s1) with (2 := F5) (3 := F6) (4 := B3) as [s2 [C1 [C2 C3]]].
  { intros k i s0 q Hk R I. destruct I as [I1 [I2 [I3 I4]]]. apply ccs_loop; auto. }
  cbn [List.length Z.of_nat app] in C1, C3. rewrite C1 in H.
  apply Ok_inj in H. subst so. cbn [so_ms]. congruence.
Qed.
