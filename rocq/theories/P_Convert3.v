(** Property theorems for the signatures of a converted piece: C195.
    [convert_raw so b] is the object that to_pretty_midi(so, to_end=b) has built when it comes to from_start
    and to_end. *)
From Coq Require Import Lqa Lia Sorted Permutation.
From Verif Require Import PyBase L_Base M_SortedDict M_Note L_Note M_Events M_Seq S_Seq M_Seqs S_Seqs L_Seqs L_Sigs M_Ticks M_Load M_Write M_Meta L_Meta M_Song M_Reader S_Reader M_Convert S_Convert L_Convert3 S_Convert3.
From Verif Require P_Seqs.
Open Scope Z_scope.

Lemma times_put : forall l w, put_times l = Ok w -> Forall2 time_put l w.
Proof.
  unfold put_times. induction l as [|s l IH]; intros w E; cbn [mapM] in E; [apply Ok_inj in E; subst; constructor|].
  destruct ((0 <? fst (g_data s)) && (0 <? snd (g_data s)) && Qle_bool 0 (g_time s)) eqn:C; cbn [bind] in E; [|discriminate].
  destruct (mapM _ l) as [w'|] eqn:M; cbn [bind] in E; [|discriminate]. apply Ok_inj in E. subst w. constructor; [|apply IH; auto].
  apply andb_true_iff in C as [C C3]. apply andb_true_iff in C as [C1 C2]. apply Z.ltb_lt in C1, C2. apply Qle_bool_iff in C3. unfold time_put. auto 10.
Qed.
Lemma keys_put : forall l w, put_keys l = Ok w -> Forall2 key_put l w.
Proof.
  unfold put_keys. induction l as [|s l IH]; intros w E; cbn [mapM] in E; [apply Ok_inj in E; subst; constructor|]. cbv zeta in E.
  destruct ((0 <=? _) && (_ <? 24) && Qle_bool 0 (g_time s)) eqn:C; cbn [bind] in E; [|discriminate].
  destruct (mapM _ l) as [w'|] eqn:M; cbn [bind] in E; [|discriminate]. apply Ok_inj in E. subst w. constructor; [|apply IH; auto].
  apply andb_true_iff in C as [C C3]. apply andb_true_iff in C as [C1 C2]. apply Z.leb_le in C1. apply Z.ltb_lt in C2. apply Qle_bool_iff in C3. unfold key_put. cbn [fst snd].
  destruct (snd (g_data s)); split; auto; try lia; split; auto; split; auto; lia.
Qed.
Lemma slice_selects : forall A (l : list (sig A)) t, selects (fun s => (g_time s <= t)%Q) l (filter (fun s => negb (Qltb t (g_time s))) l).
Proof.
  induction l as [|s l IH]; intros t; cbn [filter]; [constructor|]. destruct (Qltb t (g_time s)) eqn:L; cbn [negb]; [apply Qltb_lt in L; constructor 3; auto; lra|apply Qltb_ge in L; constructor; auto].
Qed.
Lemma selects_functional : forall A (P : A -> Prop) l a b, selects P l a -> selects P l b -> a = b.
Proof.
  intros A P l a b H. revert b. induction H as [|x l k PX H IH|x l k PX H IH]; intros b K; inversion K; subst; auto; try contradiction. f_equal. auto.
Qed.
Lemma selected_in : forall A (P : A -> Prop) l k, selects P l k -> forall x, In x l -> P x -> In x k.
Proof.
  intros A P l k H. induction H as [|y l k PY H IH|y l k PY H IH]; intros x X PX; [destruct X|destruct X as [->|X]; [left; auto|right; auto]|destruct X as [->|X]; [contradiction|auto]].
Qed.

(** C195: the time and key signatures of the piece are those of the object up to the end of the last note,
    none lost and none added, with the same numbers and times; a minor key is 12 above the major one. *)
Theorem C195_signatures : forall so b sg, convert_raw so (Some b) = Ok sg -> exists t lt lk st sk, last_end so t /\
  Permutation lt (so_times so) /\ selects (fun s => (g_time s <= t)%Q) lt st /\ Forall2 time_put st (md_times (sg_meta sg)) /\
  Permutation lk (so_keys so) /\ selects (fun s => (g_time s <= t)%Q) lk sk /\ Forall2 key_put sk (md_keys (sg_meta sg)) /\
  md_lyrics (sg_meta sg) = [].
Proof.
  intros so b sg H. destruct (raw_parts so (Some b) sg H) as (t & p0 & w & T & P0 & ET & EK & EL & _).
  exists t, (py_sort sig_ltb (so_times so)), (py_sort (fun a b => Qltb (g_time a) (g_time b)) (so_keys so)), (slice_time (so_times so) (Some t)), (slice_key (so_keys so) (Some t)).
  split; [eapply truncate_last; eauto|]. split; [symmetry; apply py_sort_perm|]. split; [apply slice_selects|]. split; [apply times_put; auto|].
  split; [symmetry; apply py_sort_perm|]. split; [apply slice_selects|]. split; [apply keys_put; auto|exact EL].
Qed.
Print Assumptions C195_signatures.
(** C195: for an object whose signatures were added at times that are apart, in the order of the object. *)
Theorem C195_order : forall so b sg dt dk at_ ak, convert_raw so (Some b) = Ok sg ->
  so_times so = sig_run (sig_default dt) at_ -> times_ok (0%Q :: map fst at_) ->
  so_keys so = sig_run (sig_default dk) ak -> times_ok (0%Q :: map fst ak) ->
  exists t st sk, last_end so t /\
  selects (fun s => (g_time s <= t)%Q) (so_times so) st /\ Forall2 time_put st (md_times (sg_meta sg)) /\
  selects (fun s => (g_time s <= t)%Q) (so_keys so) sk /\ Forall2 key_put sk (md_keys (sg_meta sg)).
Proof.
  intros so b sg dt dk at_ ak H E1 K1 E2 K2. destruct (raw_parts so (Some b) sg H) as (t & p0 & w & T & P0 & ET & EK & EL & _).
  exists t, (slice_time (so_times so) (Some t)), (slice_key (so_keys so) (Some t)). split; [eapply truncate_last; eauto|].
  pose proof (slices_spec _ dt at_ (Some t) K1) as [S1 _]. pose proof (slices_spec _ dk ak (Some t) K2) as [_ [S2 _]]. cbv zeta in S1, S2. rewrite <- E1 in S1. rewrite <- E2 in S2.
  split; [exact S1|]. split; [apply times_put; auto|]. split; [exact S2|apply keys_put; auto].
Qed.
Print Assumptions C195_order.
(** C195: a signature up to the end of the last note that a MIDI piece cannot hold (a number of beats or a unit
    that is not positive, a key outside 0..23, a time before 0) makes the conversion raise. *)
Theorem C195_refused : forall so b t, last_end so t ->
  (exists s, In s (so_times so) /\ (g_time s <= t)%Q /\ ~ time_proper s) \/ (exists s, In s (so_keys so) /\ (g_time s <= t)%Q /\ ~ key_proper s) ->
  forall sg, convert_raw so (Some b) <> Ok sg.
Proof.
  intros so b t [LE1 [n [LN LE2]]] H sg E. destruct (C195_signatures so b sg E) as (t' & lt & lk & st & sk & [LE3 [n' [LN' LE4]]] & P1 & S1 & F1 & P2 & S2 & F2 & _).
  assert (TT : (t <= t')%Q) by (specialize (LE3 n LN); rewrite LE2 in LE3; exact LE3).
  destruct H as [[s (I & L & N)]|[s (I & L & N)]]; apply N.
  - assert (K : In s st) by (eapply selected_in; [exact S1|eapply Permutation_in; [apply Permutation_sym; exact P1|exact I]|cbn; lra]).
    clear - F1 K. induction F1 as [|a x la lx H F IH]; [destruct K|]. destruct K as [->|K]; auto. destruct H as (_ & _ & H). exact H.
  - assert (K : In s sk) by (eapply selected_in; [exact S2|eapply Permutation_in; [apply Permutation_sym; exact P2|exact I]|cbn; lra]).
    clear - F2 K. induction F2 as [|a x la lx H F IH]; [destruct K|]. destruct K as [->|K]; auto. destruct H as (H1 & _ & H2 & H3). split; [lia|auto].
Qed.
Print Assumptions C195_refused.
Lemma put_tempi_res : forall l p p', put_tempi p l = Ok p' -> p_res p' = p_res p.
Proof.
  induction l as [|s l IH]; intros p p' H; cbn [put_tempi] in H; [apply Ok_inj in H; subst; auto|]. unfold put_tempo in H.
  destruct (scale_of_bpm _ _) as [c|]; cbn [bind] in H; [|discriminate]. destruct (time_to_tick p _) as [k|]; cbn [bind] in H; [|discriminate]. apply IH in H. exact H.
Qed.
(** C195: the piece has the resolution of the object, or 480 ticks per beat if that is 0. *)
Theorem C195_resolution : forall so b sg, convert_raw so b = Ok sg ->
  (m_res (so_ms so) <> 0 -> p_res (sg_pm sg) = m_res (so_ms so)) /\ (m_res (so_ms so) = 0 -> p_res (sg_pm sg) = 480).
Proof.
  intros so b sg H. destruct (raw_parts so b sg H) as (t & p0 & w & _ & P0 & _ & _ & _ & P1 & _). apply put_tempi_res in P1. rewrite P1.
  unfold pm_new in P0. destruct (scale_of_bpm _ _) as [c|]; cbn [bind] in P0; [|discriminate]. apply Ok_inj in P0. subst p0. cbn [p_res].
  split; intros N; [apply Z.eqb_neq in N; rewrite N; reflexivity|rewrite N; reflexivity].
Qed.
Print Assumptions C195_resolution.
(** A piece in 3/4 and A minor that goes on in 6/8 and E flat major; a change after the last note is left out.
    A unit of 0 is refused. *)
Definition f195 : mfile := mkMF 4 [(21, 0%Q); (3, 2%Q); (5, 9%Q)] [(0, 120)]%Q [(3, 4, 0%Q); (6, 8, 2%Q); (2, 4, 8%Q)]
  [mkRI 5 false "a" [mkRN 90 60 0 1; mkRN 80 62 1 2; mkRN 70 64 2 5] [] []].
Example C195_case : exists so raw, read f195 = Ok so /\ convert_raw so (Some 5%Q) = Ok raw /\
  md_times (sg_meta raw) = [(3, 4, 0%Q); (6, 8, 2%Q)] /\ md_keys (sg_meta raw) = [(21, 0%Q); (3, 2%Q)] /\
  so_times so = sig_run (sig_default (4, 4)) [(0%Q, (3, 4)); (2%Q, (6, 8)); (8%Q, (2, 4))] /\ times_ok [0; 0; 2; 8]%Q /\
  (exists t, last_end so t) /\
  convert_raw (mkSong (so_ms so) (so_total so) (so_keys so) (so_tempos so) (so_times so ++ [mkSig 3 0 (4, 0)])) (Some 5%Q) = Err ValueError.
Proof.
  do 2 eexists. split; [vm_compute; reflexivity|]. split; [vm_compute; reflexivity|]. split; [vm_compute; reflexivity|]. split; [vm_compute; reflexivity|].
  split; [vm_compute; reflexivity|]. split.
  - split; [intros t H; repeat (destruct H as [<-|H]; [unfold Qle; cbn; lia|]); destruct H|].
    intros a b A B. unfold apart, far.
    repeat (destruct A as [<-|A]; [repeat (destruct B as [<-|B]; [first [left; reflexivity|right; split; [unfold Qle|unfold Qlt]; cbn; lia]|]); destruct B|]). destruct A.
  - split; [|vm_compute; reflexivity]. eexists. eapply (truncate_last _ 5%Q). vm_compute. reflexivity.
Qed.
