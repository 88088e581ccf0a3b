(** Making a graph builder, and building from a multi-track object (C188, C189). *)
From Coq Require Import Lia Lqa.
From Verif Require Import PyBase L_Base M_SortedDict L_SortedDict M_Note M_Events M_Seq M_Seqs S_Seqs L_Seqs L_SeqMore M_Chord M_Graph S_Graph L_Graph4 M_Ticks S_Ticks M_Load S_Load M_Meta S_Meta M_Song S_Song M_Reader S_Reader L_Reader M_Pipe S_Pipe M_Builder S_Builder L_Builder L_Builder2 L_Builder3 L_Builder4.
From Verif Require P_Graph P_Pipe.
Open Scope Z_scope.

(** C188: a builder is made exactly for a sequence, a multi-track object or nothing, a tolerance that is a number not
    below zero, and a feature size from 1 to 127 or none; what else is given decides the exception. *)
Theorem C188_accepts : forall d per size velocity tol,
  match new_builder d per size velocity tol with
  | Ok o => d <> DOther /\ (exists t, tol = Some t /\ (0 <= t)%Q) /\ (size = SNone \/ exists n, size = SInt n /\ 1 <= n <= 127) /\
            ob_size o = size /\ ob_per o = per /\ ob_velocity o = velocity /\ tol = Some (ob_tolerance o) /\ ob_state o = b_new
  | Err x => (d = DOther /\ x = TypeError) \/
             (d <> DOther /\ x = ValueError /\ ((tol = None \/ exists t, tol = Some t /\ (t < 0)%Q) \/ size = SOther \/ exists n, size = SInt n /\ ~ 1 <= n <= 127))
  end.
Proof.
  intros d per size velocity tol. unfold new_builder.
  assert (D : d = DOther \/ d <> DOther /\ exists data, (match d with
        | DNone => Ok None | DSeq q => bind (ms_of_list DEFAULT_PPQ [q]) (fun m => Ok (Some m)) | DSeqs m => Ok (Some m) | DOther => Err TypeError end) = Ok data).
  { destruct d; [right|right|right|left; reflexivity]; (split; [discriminate|]); eexists; reflexivity. }
  destruct D as [->|[ND [data ->]]]; [left; auto|]. cbn [bind]. destruct tol as [t|]; [|right; auto].
  destruct (Qltb t 0) eqn:T; [right; split; auto; split; auto; left; right; exists t; split; auto; apply Qltb_lt; exact T|]. apply Qltb_ge in T.
  destruct size as [|n|].
  - split; auto. split; [eauto|]. split; auto.
  - destruct ((0 <? n) && (n <=? 127)) eqn:B.
    + apply andb_true_iff in B as [B1 B2]. apply Z.ltb_lt in B1. apply Z.leb_le in B2. split; auto. split; [eauto|]. split; [right; exists n; split; [reflexivity|lia]|]. auto.
    + right. split; auto. split; auto. right; right. exists n. split; auto. intros [N1 N2]. apply andb_false_iff in B as [B|B]; [apply Z.ltb_ge in B|apply Z.leb_gt in B]; lia.
  - right. auto.
Qed.
Print Assumptions C188_accepts.
(** C188: the options given to the constructor change nothing in what is built: two builders made from the same data
    build the same. *)
Theorem C188_options_ignored : forall d per size velocity tol per' size' velocity' tol' o o',
  new_builder d per size velocity tol = Ok o -> new_builder d per' size' velocity' tol' = Ok o' ->
  forall fuel e conv given c how, run_build fuel e conv o given c how = run_build fuel e conv o' given c how.
Proof.
  intros d per size velocity tol per' size' velocity' tol' o o' E E'. assert (G : ob_data o = ob_data o' /\ ob_state o = ob_state o').
  { unfold new_builder in E, E'. destruct (match d with DNone => _ | DSeq _ => _ | DSeqs _ => _ | DOther => _ end) as [x|x]; [|discriminate]. cbn [bind] in E, E'.
    destruct tol as [t|]; [|discriminate]. destruct (Qltb t 0); [discriminate|]. destruct (match size with SNone => _ | SInt _ => _ | SOther => _ end); [|discriminate].
    destruct tol' as [t'|]; [|discriminate]. destruct (Qltb t' 0); [discriminate|]. destruct (match size' with SNone => _ | SInt _ => _ | SOther => _ end); [|discriminate].
    injection E as <-. injection E' as <-. auto. }
  destruct G as [G1 G2]. intros. unfold run_build. rewrite G1, G2. reflexivity.
Qed.
Print Assumptions C188_options_ignored.
(** C188: without data, neither in the constructor nor in the call, building is refused. *)
Theorem C188_no_data : forall per size velocity tol o fuel e conv c how, new_builder DNone per size velocity tol = Ok o ->
  run_build fuel e conv o None c how = Some (Err ValueError, ob_state o, None).
Proof.
  intros per size velocity tol o fuel e conv c how E. unfold new_builder in E. cbn [bind] in E. destruct tol as [t|]; [|discriminate]. destruct (Qltb t 0); [discriminate|].
  destruct (match size with SNone => _ | SInt _ => _ | SOther => _ end); [|discriminate]. injection E as <-. reflexivity.
Qed.
Print Assumptions C188_no_data.
Lemma one_seq : forall q, exists m, ms_of_list DEFAULT_PPQ [q] = Ok m /\ tinv m /\ all_registered m /\ sd_keys (m_tracks m) = [i_num (q_instr q)] /\ ms_values m = [q] /\
  (forall k, trk m k <> None <-> k = i_num (q_instr q)).
Proof.
  intros q. unfold ms_of_list. cbn [ms_add_all]. unfold ms_add_seq. cbn [reg ms_empty m_idx]. change (reg (ms_empty DEFAULT_PPQ) (i_num (q_instr q))) with (@None Z). cbn [bind].
  set (k := i_num (q_instr q)). destruct (trk_put (ms_empty DEFAULT_PPQ) k q (tinv_empty _)) as [I G].
  eexists. split; [reflexivity|]. split; [apply tinv_put_reg, I|]. assert (T : forall x, trk (put_track (ms_empty DEFAULT_PPQ) k q) x <> None <-> x = k).
  { intros x. rewrite G. destruct (Z.eqb_spec k x); split; intros; subst; try congruence. exfalso. apply H. reflexivity. }
  split. { intros x X. rewrite trk_put_reg in X. apply T in X. rewrite X, reg_put_reg, Z.eqb_refl. reflexivity. }
  split; [reflexivity|]. split; [|intros x; rewrite trk_put_reg; apply T]. unfold ms_values. change (sd_keys (m_tracks (put_reg (put_track (ms_empty DEFAULT_PPQ) k q) k k))) with [k].
  cbn [flat_map]. rewrite trk_put_reg, G, Z.eqb_refl. reflexivity.
Qed.
(** C188: from_midi_sequence refuses an empty sequence; any other gives a builder (for a legal size) whose "one graph
    per instrument" option is the velocity flag; building builds exactly that sequence if its program is from 0 to 127, and
    otherwise never succeeds. *)
Theorem C188_from_sequence : forall q size velocity,
  (q_notes q = [] -> from_midi_sequence q size velocity = Err ValueError) /\
  (q_notes q <> [] -> (size = SNone \/ exists n, size = SInt n /\ 1 <= n <= 127) -> exists o m, from_midi_sequence q size velocity = Ok o /\ ob_data o = Some m /\ ms_values m = [q] /\
     ob_per o = velocity /\ ob_velocity o = false /\
     forall fuel e conv c how, (1 <= fuel)%nat ->
       (0 <= i_num (q_instr q) <= 127 -> exists m', run_build fuel e conv o None c how = Some (build e conv b_new [q] c how, m')) /\
       (~ 0 <= i_num (q_instr q) <= 127 -> exists b m', run_build fuel e conv o None c how = Some (Err ValueError, b, m'))).
Proof.
  intros q size velocity. unfold from_midi_sequence. split; [intros ->; reflexivity|]. intros NE SZ. destruct (q_notes q) as [|n0 l0] eqn:QN; [congruence|].
  destruct (one_seq q) as (m & -> & I & A & K & V & T). cbn [bind]. exists (mkObj (Some m) size velocity false (1 # 5) b_new), m.
  split. { unfold new_builder. cbn [bind]. change (Qltb (1 # 5) 0) with false. cbn iota. destruct SZ as [->|[n [-> N]]]; [reflexivity|]. replace ((0 <? n) && (n <=? 127)) with true; [reflexivity|].
    symmetry. apply andb_true_iff. split; [apply Z.ltb_lt; lia|apply Z.leb_le; lia]. }
  split; [reflexivity|]. split; [exact V|]. split; [reflexivity|]. split; [reflexivity|]. intros fuel e conv c how F. unfold run_build. cbn [ob_data ob_state]. split; intros R.
  - exists (Some m). rewrite (build_registered e conv c how m b_new fuel I A); [rewrite V; destruct (build e conv b_new [q] c how); reflexivity| |rewrite K; exact F].
    intros k Hk. apply T in Hk. lia.
  - destruct fuel as [|f]; [lia|]. exists b_new, (Some m). unfold build_object. cbn [walk]. rewrite K. cbn [nth_error]. unfold ms_getitem.
    replace ((i_num (q_instr q) <? 0) || (128 <=? i_num (q_instr q))) with true; [reflexivity|]. symmetry. apply orb_true_iff. rewrite Z.ltb_lt, Z.leb_le. lia.
Qed.
Print Assumptions C188_from_sequence.
(** C188: from_file reads the file only if it is there and is named something.mid or something.midi; everything else
    is a ValueError. *)
Theorem C188_from_file : forall keynum dc r name tracks size velocity o, from_file keynum dc r name tracks size velocity = Ok o ->
  (named name "mid" \/ named name "midi") /\ exists t so, tracks = Some t /\ read_file keynum dc r t = Ok so /\ ob_data o = Some (so_ms so) /\ ob_per o = velocity /\ ob_velocity o = false.
Proof.
  intros keynum dc r name tracks size velocity o. unfold from_file. destruct tracks as [t|]; [|discriminate].
  destruct (String.eqb (suffix_of name) ".mid" || String.eqb (suffix_of name) ".midi") eqn:B; [|discriminate].
  destruct (read_file keynum dc r t) as [so|x] eqn:RF; [|discriminate]. cbn [bind]. unfold new_builder. cbn [bind]. change (Qltb (1 # 5) 0) with false. cbn iota.
  destruct (match size with SNone => _ | SInt _ => _ | SOther => _ end); [|discriminate]. intros E. injection E as <-. split; [|exists t, so; auto].
  apply orb_true_iff in B as [B|B]; apply String.eqb_eq in B; [left; apply (suffix_iff name "mid") in B|right; apply (suffix_iff name "midi") in B];
    try exact B; try discriminate; cbn; repeat split; discriminate.
Qed.
Print Assumptions C188_from_file.
(** C188: and refusals: not a file, or another name. *)
Theorem C188_from_file_refuses : forall keynum dc r name tracks size velocity, tracks = None \/ ~ (named name "mid" \/ named name "midi") ->
  from_file keynum dc r name tracks size velocity = Err ValueError.
Proof.
  intros keynum dc r name tracks size velocity H. unfold from_file. destruct tracks as [t|]; [|reflexivity]. destruct H as [H|H]; [discriminate|].
  destruct (String.eqb (suffix_of name) ".mid" || String.eqb (suffix_of name) ".midi") eqn:B; [|reflexivity]. exfalso. apply H.
  apply orb_true_iff in B as [B|B]; apply String.eqb_eq in B; [left; apply (suffix_iff name "mid") in B|right; apply (suffix_iff name "midi") in B];
    try exact B; try discriminate; cbn; repeat split; discriminate.
Qed.
Print Assumptions C188_from_file_refuses.
(** C188: every valid MIDI file of at most 128 parts with such a name gives a builder, and building from it succeeds. *)
Theorem C188_from_file_builds : forall e conv keynum dc r name file size velocity c per, env_ok e -> valid_config c -> (forall g, conv g = None) -> 0 < r ->
  midi_file keynum file -> at_most 128 file -> named name "mid" \/ named name "midi" -> (size = SNone \/ exists n, size = SInt n /\ 1 <= n <= 127) ->
  (c_type c = OneHotAttr -> forall t ev ch v, In t file -> In ev t -> snd ev = FMsg (MOn ch 127 v) -> v <= 0) ->
  exists o so, from_file keynum dc r name (Some file) size velocity = Ok o /\ read_file keynum dc r file = Ok so /\
  forall fuel, (128 <= fuel)%nat -> exists b, run_build fuel e conv o None c per = Some (Ok tt, b, Some (so_ms so)) /\
    build e conv b_new (ms_values (so_ms so)) c per = (Ok tt, b).
Proof.
  intros e conv keynum dc r name file size velocity c per EO V CV Hr MF AM NM SZ OH.
  destruct (L_Pipe2.read_file_spec keynum dc r file Hr MF AM) as (so & ks & RF & _).
  exists (mkObj (Some (so_ms so)) size velocity false (1 # 5) b_new), so. split; [|split; [exact RF|]].
  - unfold from_file. assert (B : (String.eqb (suffix_of name) ".mid" || String.eqb (suffix_of name) ".midi") = true).
    { apply orb_true_iff. rewrite !String.eqb_eq. destruct NM as [NM|NM]; [left; apply (suffix_iff name "mid")|right; apply (suffix_iff name "midi")]; try exact NM; try discriminate; cbn; repeat split; discriminate. }
    rewrite B, RF. cbn [bind]. unfold new_builder. cbn [bind]. change (Qltb (1 # 5) 0) with false. cbn iota. destruct SZ as [->|[n [-> N]]]; [reflexivity|].
    replace ((0 <? n) && (n <=? 127)) with true; [reflexivity|]. symmetry. apply andb_true_iff. split; [apply Z.ltb_lt; lia|apply Z.leb_le; lia].
  - intros fuel F. destruct (P_Pipe.C169_all e conv b_new keynum dc r file so c per EO V CV Hr MF AM OH RF) as [b B]. exists b. split; [|exact B].
    destruct (read_file_tracks keynum dc r file so Hr MF AM RF) as (n & P & NB & I & RG & TS & TN).
    unfold run_build. cbn [ob_data ob_state]. rewrite (build_registered e conv c per (so_ms so) b_new fuel I); [rewrite B; reflexivity| | |].
    + intros k K. rewrite RG. destruct ((0 <=? k) && (k <? n)) eqn:Z; [reflexivity|]. exfalso. apply K, TN. intros [Z1 Z2]. apply andb_false_iff in Z as [Z|Z]; [apply Z.leb_gt in Z|apply Z.ltb_ge in Z]; lia.
    + intros k K. destruct (Z_lt_dec k 0); [exfalso; apply K, TN; lia|]. destruct (Z_lt_dec k n); [lia|exfalso; apply K, TN; lia].
    + transitivity 128%nat; [|exact F]. destruct (values_length _ I) as [_ _].
      assert (KN : incl (sd_keys (m_tracks (so_ms so))) (map Z.of_nat (List.seq 0 128))).
      { intros k K. apply (key_trk _ k I) in K. destruct (Z_lt_dec k 0); [exfalso; apply K, TN; lia|]. destruct (Z_lt_dec k n); [|exfalso; apply K, TN; lia]. apply in_map_iff. exists (Z.to_nat k). split; [lia|apply in_seq; lia]. }
      assert (ND : NoDup (sd_keys (m_tracks (so_ms so)))) by (destruct I as [N0 P0 _]; apply (Permutation.Permutation_NoDup P0 N0)).
      pose proof (NoDup_incl_length ND KN) as L. rewrite map_length, seq_length in L. exact L.
Qed.
Print Assumptions C188_from_file_builds.

(** C189: a multi-track object whose tracks were made by number (create_track, get_track, then changed in any way) or from
    a list: if the numbers are from 0 to 127, build builds exactly its tracks in the order of their numbers and leaves the
    object as it was. *)
Theorem C189_numbered : forall e conv c per b fuel res ops m, Forall orderly ops -> m = ms_run (ms_empty res) ops -> in_range m -> (List.length (ms_values m) <= fuel)%nat ->
  build_object fuel e conv b m c per = Some (build e conv b (ms_values m) c per, m).
Proof.
  intros e conv c per b fuel res ops m F -> R L. assert (I : tinv (ms_run (ms_empty res) ops)) by apply tinv_run, tinv_empty. destruct (values_length _ I) as [V1 V2].
  apply build_registered; [exact I| |exact R|lia]. apply orderly_run; [exact F|apply tinv_empty|intros k K; exfalso; apply K; reflexivity].
Qed.
Print Assumptions C189_numbered.
(** C188: build(seqs) builds what it is given, whatever the constructor was given, on top of what the builder has
    built; build() builds the data of the constructor. *)
Theorem C188_given : forall e conv c per fuel res ops m o, Forall orderly ops -> m = ms_run (ms_empty res) ops -> in_range m -> (List.length (ms_values m) <= fuel)%nat ->
  run_build fuel e conv o (Some m) c per = Some (build e conv (ob_state o) (ms_values m) c per, Some m) /\
  (ob_data o = Some m -> run_build fuel e conv o None c per = Some (build e conv (ob_state o) (ms_values m) c per, Some m)).
Proof.
  intros e conv c per fuel res ops m o F E R L. pose proof (C189_numbered e conv c per (ob_state o) fuel res ops m F E R L) as B. unfold run_build.
  split; [|intros ->]; rewrite B; destruct (build e conv (ob_state o) (ms_values m) c per); reflexivity.
Qed.
Print Assumptions C188_given.
(** C188: from_midi_sequences keeps the object, one graph per instrument, 12 features, no velocities, tolerance 0.2. *)
Theorem C188_from_sequences : forall m, exists o, from_midi_sequences m = Ok o /\ ob_data o = Some m /\ ob_per o = true /\ ob_size o = SInt 12 /\
  ob_velocity o = false /\ (ob_tolerance o == 1 # 5)%Q /\ ob_state o = b_new.
Proof. intros m. eexists. split; [reflexivity|]. cbn. repeat (split; [reflexivity|]). reflexivity. Qed.
Print Assumptions C188_from_sequences.
(** C189: likewise for MidiNoteSequences(list). *)
Theorem C189_list : forall e conv c per b fuel res l m, ms_of_list res l = Ok m -> (forall q, In q l -> 0 <= i_num (q_instr q) <= 127) -> (List.length (ms_values m) <= fuel)%nat ->
  build_object fuel e conv b m c per = Some (build e conv b (ms_values m) c per, m).
Proof.
  intros e conv c per b fuel res l m E R L. destruct (of_list_registered res l m E) as (I & A & T). destruct (values_length _ I) as [V1 V2].
  apply build_registered; [exact I|exact A| |lia]. intros k K. destruct (T k K) as (q & Q1 & <-). pose proof (R q Q1). lia.
Qed.
Print Assumptions C189_list.
(** C189: one track with a number outside 0..127 and building such an object never succeeds. *)
Theorem C189_outside : forall e conv c per b fuel res ops m k r b' m', Forall orderly ops -> m = ms_run (ms_empty res) ops -> trk m k <> None -> ~ 0 <= k <= 127 ->
  build_object fuel e conv b m c per = Some (r, b', m') -> r <> Ok tt.
Proof.
  intros e conv c per b fuel res ops m k r b' m' F -> K NK B ->. assert (I : tinv (ms_run (ms_empty res) ops)) by apply tinv_run, tinv_empty.
  assert (A : all_registered (ms_run (ms_empty res) ops)) by (apply orderly_run; [exact F|apply tinv_empty|intros x X; exfalso; apply X; reflexivity]).
  unfold build_object in B. destruct (walk fuel e conv c per b None (ms_run (ms_empty res) ops) 0) as [[[r0 b0] m0]|] eqn:W; [|discriminate]. destruct r0 as [l|x]; [|discriminate].
  apply NK. pose proof (walk_range e conv c per _ I A fuel 0%nat b None l b0 m0 W k) as H. cbn [skipn] in H. specialize (H (proj2 (key_trk _ k I) K)). lia.
Qed.
Print Assumptions C189_outside.
(** C189: build always ends, after as many rounds as there are tracks and 128 more. *)
Theorem C189_ends : forall e conv c per b res ops m fuel, m = ms_run (ms_empty res) ops -> (List.length (ms_values m) + 128 <= fuel)%nat ->
  build_object fuel e conv b m c per <> None.
Proof.
  intros e conv c per b res ops m fuel -> F. assert (I : tinv (ms_run (ms_empty res) ops)) by apply tinv_run, tinv_empty. destruct (values_length _ I) as [V1 V2].
  unfold build_object. pose proof (walk_total e conv c per fuel _ b None 0%nat I) as W. destruct (walk fuel e conv c per b None (ms_run (ms_empty res) ops) 0) as [[[[[g|]|x] b0] m0]|]; try discriminate.
  intros _. apply W; [|reflexivity]. pose proof (regs_le (ms_run (ms_empty res) ops)). lia.
Qed.
Print Assumptions C189_ends.
(** C189: an object whose tracks were only ever assigned (seqs[i] = ..., set_sequence) builds nothing: the builder stays as
    it was, whatever notes the tracks hold; the call returns or raises a ValueError. *)
Theorem C189_assigned : forall e conv c per b fuel res ops m r b' m', Forall assigns ops -> m = ms_run (ms_empty res) ops ->
  build_object fuel e conv b m c per = Some (r, b', m') -> b' = b /\ (r = Ok tt \/ r = Err ValueError).
Proof.
  intros e conv c per b fuel res ops m r b' m' F -> B. eapply object_hollow; [apply tinv_run, tinv_empty| |exact B]. intros k. rewrite assigns_reg by exact F. reflexivity.
Qed.
Print Assumptions C189_assigned.
(** C189: assigned to 0, 1, ..., n - 1, they make every build a ValueError. *)
Theorem C189_assigned_consecutive : forall e conv c per b fuel res ops m n r b' m', Forall assigns ops -> m = ms_run (ms_empty res) ops -> 1 <= n -> consecutive m n -> valid_config c ->
  build_object fuel e conv b m c per = Some (r, b', m') -> r = Err ValueError.
Proof.
  intros e conv c per b fuel res ops m n r b' m' F -> N C V B. assert (I : tinv (ms_run (ms_empty res) ops)) by apply tinv_run, tinv_empty.
  assert (NR : none_registered (ms_run (ms_empty res) ops)) by (intros k; rewrite assigns_reg by exact F; reflexivity).
  unfold build_object in B. destruct (walk fuel e conv c per b None (ms_run (ms_empty res) ops) 0) as [[[r0 b0] m0]|] eqn:W; [|discriminate].
  pose proof (walk_consecutive e conv c per n N V fuel 0%nat _ b r0 b0 m0 I ltac:(lia)) as H. cbn [Z.of_nat] in H. rewrite Z.add_0_r in H.
  specialize (H C). rewrite H in B; [injection B as <- _ _; reflexivity| |apply hollow_none; exact NR|exact W]. intros k. rewrite NR. split; [intros X; exfalso; apply X; reflexivity|lia].
Qed.
Print Assumptions C189_assigned_consecutive.
(** C189: and of n assigned tracks (numbers from 0 to 127), the one numbered n, if there is one, loses its notes. *)
Theorem C189_assigned_lost : forall e conv c per b fuel res ops m r b' m' k q, Forall assigns ops -> m = ms_run (ms_empty res) ops -> in_range m -> valid_config c ->
  k = Z.of_nat (List.length (ms_values m)) -> trk m k = Some q ->
  build_object fuel e conv b m c per = Some (r, b', m') -> exists q', trk m' k = Some q' /\ q_notes q' = [].
Proof.
  intros e conv c per b fuel res ops m r b' m' k q F -> R V K T B. eapply object_overwrites; eauto; [apply tinv_run, tinv_empty|]. intros x. rewrite assigns_reg by exact F. reflexivity.
Qed.
Print Assumptions C189_assigned_lost.

(** Two notes; a track made by number and filled, and the same notes assigned. *)
Definition q188 : seq := P_Graph.sq [P_Graph.nt 60 100 0; P_Graph.nt 69 70 1].
Example C188_case : exists o, from_midi_sequence q188 (SInt 12) true = Ok o /\
  (exists b m, run_build 1 P_Graph.e_ex (fun _ => None) o None P_Graph.cf true = Some (Ok tt, b, Some m) /\ map (fun g => List.length (g_nodes g)) (b_sub b) = [2%nat]) /\
  named "a.b.mid" "mid" /\ ~ named ".mid" "mid" /\ ~ named "a.MID" "mid".
Proof.
  eexists. split; [reflexivity|]. split; [eexists; eexists; split; vm_compute; reflexivity|]. split; [exists "a.b"%string; split; [discriminate|reflexivity]|].
  split; intros [stem [N E]].
  - destruct stem as [|a s]; [congruence|]. cbn in E. injection E as _ E. destruct s as [|b s]; [discriminate|]. cbn in E. injection E as _ E. destruct s as [|c s]; [discriminate|]. cbn in E. injection E as _ E.
    destruct s as [|d s]; [discriminate|]. cbn in E. injection E as _ E. destruct s; discriminate.
  - destruct stem as [|a s]; [congruence|]. cbn in E. injection E as _ E. destruct s as [|b s]; [discriminate|]. cbn in E. injection E as _ E. destruct s as [|c s]; [discriminate|]. cbn in E. injection E as _ E.
    destruct s as [|d s]; [discriminate|]. cbn in E. injection E as _ E. destruct s as [|f s]; [discriminate|]. cbn in E. injection E as _ E. destruct s; discriminate.
Qed.
Definition ops189 : list ms_op := [MsCreate 5 0 "Piano" false; MsMutate 5 (QAddNote (P_Graph.nt 60 100 0)); MsMutate 5 (QAddNote (P_Graph.nt 69 70 1)); MsGetTrack 2 "Bass" 33 false].
Example C189_numbered_case : Forall orderly ops189 /\ in_range (ms_run (ms_empty 220) ops189) /\
  exists b, build_object 4 P_Graph.e_ex (fun _ => None) b_new (ms_run (ms_empty 220) ops189) P_Graph.cf true = Some (Ok tt, b, ms_run (ms_empty 220) ops189) /\
    map (fun g => List.length (g_nodes g)) (b_sub b) = [2%nat].
Proof.
  split; [repeat constructor|]. split.
  { intros k K. apply (key_trk _ k (tinv_run ops189 _ (tinv_empty 220))) in K. vm_compute in K. destruct K as [<-|[<-|[]]]; lia. }
  eexists. split; vm_compute; reflexivity.
Qed.
(** The only track, number 1, is overwritten; the only track, number 0, makes build fail. *)
Example C189_assigned_case : let m := fun k => ms_run (ms_empty 220) [MsSet k q188] in
  (in_range (m 1) /\ 1 = Z.of_nat (List.length (ms_values (m 1))) /\ trk (m 1) 1 = Some q188 /\
   exists m', build_object 200 P_Graph.e_ex (fun _ => None) b_new (m 1) P_Graph.cf true = Some (Ok tt, b_new, m') /\ map q_notes (ms_values m') = [[]]) /\
  (consecutive (m 0) 1 /\ exists m', build_object 200 P_Graph.e_ex (fun _ => None) b_new (m 0) P_Graph.cf true = Some (Err ValueError, b_new, m')).
Proof.
  cbv zeta. split.
  - split. { intros k K. apply (key_trk _ k (tinv_run [MsSet 1 q188] _ (tinv_empty 220))) in K. vm_compute in K. destruct K as [<-|[]]; lia. }
    split; [reflexivity|]. split; [reflexivity|]. eexists. split; vm_compute; reflexivity.
  - split. { intros k. rewrite <- (key_trk _ k (tinv_run [MsSet 0 q188] _ (tinv_empty 220))). change (sd_keys (m_tracks (ms_run (ms_empty 220) [MsSet 0 q188]))) with [0]. cbn [In]. split; [intros [<-|[]]; lia|intros H; left; lia]. }
    eexists. vm_compute. reflexivity.
Qed.
