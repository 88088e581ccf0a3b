(** Files and assigned tracks. *)
From Coq Require Import Lia Lqa Sorted Permutation.
From Verif Require Import PyBase L_Base M_SortedDict L_SortedDict M_Note L_Note M_Events M_Seq M_Seqs S_Seqs L_Seqs M_Ticks S_Ticks L_Ticks M_Load S_Load L_Load M_Meta S_Meta L_Meta M_Song S_Song L_Song M_Reader S_Reader L_Reader L_Reader2 M_Pipe S_Pipe L_Pipe L_Pipe2 M_Chord M_Graph S_Graph M_Builder S_Builder L_Builder.
From Verif Require L_Beats5 S_Beats.
Open Scope Z_scope.

Lemma read_file_tracks : forall keynum dc r file so, 0 < r -> midi_file keynum file -> at_most 128 file -> read_file keynum dc r file = Ok so ->
  exists n P, 0 <= n <= 128 /\ tracks_are n P (so_ms so).
Proof.
  intros keynum dc r file so Hr MF AM RF.
  destruct (load_total keynum dc r file Hr MF) as (p & d & is & last & evs & LB & TE & PL & CK & TL & LS & F & TT & KO & TO & _).
  destruct (L_Beats5.tempo_map_loaded r evs last [] Hr TE TL LB) as (p' & m & PL' & GT & TM). assert (p' = p) by congruence. subst p'. cbn in GT.
  assert (PR : p_res p = r). { destruct (pm_load_ok r evs last Hr TE ltac:(lia) ltac:(lia)) as (p0 & m0 & E0 & _ & _ & _ & R0). congruence. }
  set (sg := M_Song.mkSong p d is) in *. set (f := reader_file sg m).
  assert (SP : Forall2 (fun e i => S_Reader.inst_ok (reader_inst i)) (l_insts (load_file dc (map (view as_msg) file))) is).
  { revert F. apply Forall2_imp. intros [k i] x K _ E. cbn [fst snd] in *. eapply to_seconds_spec; eauto. }
  assert (FI : S_Reader.file_ok f).
  { unfold S_Reader.file_ok, f, reader_file, sg. cbn. split; [lia|]. split; auto. split; [apply Forall_forall; apply TM|]. split; auto. split.
    - apply Forall_forall. intros x X. apply in_map_iff in X as [i [<- X]]. destruct (F2_in_r _ _ _ _ _ _ SP X) as [e [_ H]]. exact H.
    - rewrite map_length. rewrite <- (F2_len _ _ _ _ _ SP). rewrite <- (map_length fst). apply AM; [apply keys_nodup|]. intros k K. eapply keys_parts; eauto. }
  destruct (read_spec f FI) as (so' & RD & _ & TR).
  assert (so' = so). { unfold read_file in RF. rewrite LS in RF. cbn [bind sg_pm] in RF. fold sg in RF. change (sg_pm sg) with p in RF. rewrite GT in RF. cbn [bind] in RF. fold f in RF. congruence. }
  subst so'. eexists. eexists. split; [|exact TR]. destruct FI as (_ & _ & _ & _ & _ & FI). lia.
Qed.
