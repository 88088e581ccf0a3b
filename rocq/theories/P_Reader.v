(** Properties C42, C43, C86, C87: reading files into multi-track objects and back.
    [read f] is MidiReader.read on the loaded file [f]; [trk ms j] the track with index [j];
    [to_instruments so e] the instruments to_pretty_midi(so, to_end=e) builds; [write] is
    MidiReader.write, [rest] standing for everything after those instruments are built. *)
From Coq Require Import Sorted Lia Lqa QArith.
From Verif Require Import PyBase M_SortedDict M_Note M_Events M_Seq S_Note S_Seq M_Seqs S_Seqs L_Seqs M_Reader S_Reader L_Reader L_Reader2 L_Reader3 L_Reader4.
Open Scope Z_scope.

(** C42: reading succeeds, there is exactly one track per instrument, under the instrument's
    index, with its program and drum flag, and the notes of the track are the surviving notes of
    the instrument, in order, unchanged, each with the time signature in force at its start; the
    total time is the end of the last audible note. *)
Theorem C42_tracks : forall f, file_ok f -> exists so, read f = Ok so /\ file_end f (so_total so) /\
  (forall j, ~ 0 <= j < Z.of_nat (List.length (mf_insts f)) -> trk (so_ms so) j = None) /\
  (forall j i, nth_error (mf_insts f) j = Some i -> exists q, trk (so_ms so) (Z.of_nat j) = Some q /\
     i_num (q_instr q) = ri_prog i /\ i_drum (q_instr q) = ri_drum i /\ q_res q = mf_res f /\
     exists k, survivors [] (ri_notes i) k /\ Forall2 same_note k (q_notes q) /\
       Forall (fun n => (n_num n, n_den n) = time_signature (so_times so) (n_start n) /\ n_program n = ri_prog i /\ n_drum n = ri_drum i) (q_notes q)).
Proof. exact read_tracks. Qed.
Print Assumptions C42_tracks.
(** C42: when the notes of an instrument are listed by ascending end, exactly the audible ones
    survive. *)
Theorem C42_ascending : forall l k, StronglySorted (fun a b => (rn_end a <= rn_end b)%Q) l ->
  survivors [] l k -> selects audible l k.
Proof. intros l k A B. apply (survivors_ascending l [] k); auto. intros m x []. Qed.
Print Assumptions C42_ascending.
(** C42: a note that ends before an earlier audible note of its instrument is lost. *)
Theorem C42_lost : forall a m b n c k, survivors [] (a ++ m :: b ++ n :: c) k -> audible m -> (rn_end n < rn_end m)%Q ->
  exists k1 k2 k3, k = k1 ++ k2 ++ k3 /\ survivors [] a k1 /\ survivors a (m :: b) k2 /\ survivors (a ++ m :: b ++ [n]) c k3.
Proof. exact survivors_lost. Qed.
Print Assumptions C42_lost.
(** C42: a file with more than 128 instruments can be read only if those from the 129th on have
    no audible note. *)
Theorem C42_too_many : forall f, (0 < mf_res f) -> Forall (fun k => 0 <= fst k < 24) (mf_keys f) -> Forall (fun t => (0 < snd t)%Q) (mf_tempos f) ->
  Forall (fun t => 0 < fst (fst t) <= 255 /\ exists k, 0 <= k <= 7 /\ snd (fst t) = 2 ^ k) (mf_times f) -> Forall inst_ok (mf_insts f) ->
  (exists j i n, (128 <= j)%nat /\ nth_error (mf_insts f) j = Some i /\ In n (ri_notes i) /\ audible n) -> read f = Err ValueError.
Proof. exact too_many. Qed.
Print Assumptions C42_too_many.
Definition i42a : rinst := mkRI 5 false "Lead" [mkRN 100 60 0 2; mkRN 90 64 1 (3#2); mkRN 80 67 2 3; mkRN 70 70 4 4] [(100, 1%Q); (-200, 4%Q)] [(7, 90, 5%Q); (7, 80, 0%Q)].
Definition i42b : rinst := mkRI 0 true "Drums" [mkRN 100 36 0 (1#2)] [] [].
Definition f42 : mfile := mkMF 480 [(3, 0%Q); (15, 2%Q)] [(0%Q, 90%Q)] [(3, 4, 1%Q)] [i42a; i42b].
Example C42_case : file_ok f42 /\ has_audible f42 /\ exists so, read f42 = Ok so /\ so_total so = 3%Q /\
  (exists q, trk (so_ms so) 0 = Some q /\ map (fun n => (n_pitch n, n_num n)) (q_notes q) = [(60, 4); (67, 3)] /\
     map b_amount (q_bends q) = [-200] /\ map cc_value (q_ccs q) = [90]) /\
  (exists q, trk (so_ms so) 1 = Some q /\ map n_pitch (q_notes q) = [36]).
Proof.
  split; [|split].
  - unfold file_ok, f42; simpl. split; [lia|]. split; [repeat constructor; simpl; lia|]. split; [repeat constructor; simpl; lra|].
    split; [constructor; [simpl; split; [lia|exists 2; split; [lia|reflexivity]]|constructor]|]. split; [|lia].
    repeat constructor; unfold note_ok, i42a, i42b; simpl; try lia; try lra.
  - exists i42a, (mkRN 100 60 0 2). split; [left; reflexivity|]. split; [left; reflexivity|]. unfold audible. vm_compute. intros H. apply H. reflexivity.
  - eexists. split; [vm_compute; reflexivity|]. split; [reflexivity|]. split.
    + eexists. split; [vm_compute; reflexivity|]. split; [reflexivity|split; reflexivity].
    + eexists. split; [vm_compute; reflexivity|reflexivity].
Qed.

(** C43: when the file has an audible note, a track keeps exactly those pitch bends and control
    changes that are not before the end of the last audible note of the whole file; otherwise it
    keeps all of them. *)
Theorem C43_controllers : forall f, file_ok f -> exists so, read f = Ok so /\
  (forall j i, nth_error (mf_insts f) j = Some i -> exists q, trk (so_ms so) (Z.of_nat j) = Some q /\
     (exists bs, selects (fun b => has_audible f -> (so_total so <= snd b)%Q) (ri_bends i) bs /\ Forall2 same_bend bs (q_bends q)) /\
     (exists cs, selects (fun c => has_audible f -> (so_total so <= snd c)%Q) (ri_ccs i) cs /\ Forall2 same_cc cs (q_ccs q))).
Proof. exact read_controllers. Qed.
Print Assumptions C43_controllers.

(** C86: to_pretty_midi without to_end always raises: ValueError when there is no note, TypeError
    otherwise. *)
Theorem C86_convert : forall so, (forall l, to_instruments so None <> Ok l) /\
  (ms_events (so_ms so) = [] -> to_instruments so None = Err ValueError) /\
  (ms_events (so_ms so) <> [] -> to_instruments so None = Err TypeError).
Proof. exact to_instruments_none. Qed.
Print Assumptions C86_convert.
(** C86: so write without to_end always raises, whatever the rest of it does. *)
Theorem C86_write : forall rest so filename exists_ from_start overwrite,
  exists e, write rest so filename exists_ from_start None overwrite = Err e.
Proof. exact write_fails. Qed.
Print Assumptions C86_write.
(** C86: an existing file is not touched without overwrite. *)
Theorem C86_exists : forall rest so filename from_start to_end, sd_len (m_tracks (so_ms so)) <> O -> filename <> ""%string ->
  write rest so filename true from_start to_end false = Err FileExistsError.
Proof. exact write_exists. Qed.
Print Assumptions C86_exists.
(** C86: with to_end too, write decides on its arguments alone: ValueError for no track or an empty
    name, FileExistsError for an existing file without overwrite, ValueError for a negative bound or
    to_end < from_start (equal bounds pass); otherwise it converts and goes on. *)
Theorem C86_arguments : forall rest so filename exists_ from_start to_end overwrite,
  let bad := sd_len (m_tracks (so_ms so)) = O \/ filename = ""%string in
  let kept_ := exists_ = true /\ overwrite = false in
  let range := (exists a, from_start = Some a /\ (a < 0)%Q) \/ (exists b, to_end = Some b /\ (b < 0)%Q) \/
               (exists a b, from_start = Some a /\ to_end = Some b /\ (b < a)%Q) in
  let r := write rest so filename exists_ from_start to_end overwrite in
  (bad -> r = Err ValueError) /\ (~ bad -> kept_ -> r = Err FileExistsError) /\ (~ bad -> ~ kept_ -> range -> r = Err ValueError) /\
  (~ bad -> ~ kept_ -> ~ range -> r = bind (to_instruments so to_end) rest).
Proof. exact write_args. Qed.
Print Assumptions C86_arguments.
Example C86_case : exists so, read f42 = Ok so /\ sd_len (m_tracks (so_ms so)) = 2%nat /\ ms_events (so_ms so) <> [] /\
  to_instruments so None = Err TypeError /\ write (fun _ => Ok tt) so "a.mid" false None (Some 9%Q) false = Ok tt /\
  write (fun _ => Ok tt) so "a.mid" true None (Some 9%Q) false = Err FileExistsError.
Proof. eexists. split; [vm_compute; reflexivity|]. repeat split; try (vm_compute; reflexivity). vm_compute. discriminate. Qed.

(** C87: converting a read file back gives an empty instrument and then, for each instrument of
    the file, one with program 0, the same drum flag and the surviving notes, without any pitch
    bend or control change. *)
Theorem C87_back : forall f so e, file_ok f -> read f = Ok so -> has_audible f ->
  exists l, to_instruments so (Some e) = Ok (mkRI 0 false "" [] [] [] :: l) /\
    Forall2 (fun i o => ri_prog o = 0 /\ ri_drum o = ri_drum i /\ survivors [] (ri_notes i) (ri_notes o) /\ ri_bends o = [] /\ ri_ccs o = []) (mf_insts f) l.
Proof. exact back_spec. Qed.
Print Assumptions C87_back.
Example C87_case : exists so, read f42 = Ok so /\ to_instruments so (Some 2%Q) =
  Ok [mkRI 0 false "" [] [] []; mkRI 0 false "" [mkRN 100 60 0 2; mkRN 80 67 2 3] [] []; mkRI 0 true "" [mkRN 100 36 0 (1#2)] [] []].
Proof. eexists. split; vm_compute; reflexivity. Qed.

(** C150: reading a file checks the key signatures, then the tempos, then the time signatures, and
    the first bad one decides the exception: ValueError for a key number outside 0..23,
    AssertionError for a tempo or resolution that is not positive, MidiReaderError for a time
    signature without a positive numerator and a power of two as denominator. *)
Theorem C150_signature_errors : forall f,
  let keys_ok := Forall (fun k => 0 <= fst k < 24) (mf_keys f) in
  let tempos_ok := Forall (fun t => (0 < snd t)%Q /\ 0 < mf_res f) (mf_tempos f) in
  let times_ok := Forall (fun t => 0 < fst (fst t) /\ power_of_two (snd (fst t))) (mf_times f) in
  (~ keys_ok -> read f = Err ValueError) /\
  (keys_ok -> (~ tempos_ok -> read f = Err AssertionError) /\
              (tempos_ok -> ~ times_ok -> read f = Err MidiReaderError)) /\
  (forall so, read f = Ok so -> keys_ok /\ tempos_ok /\ times_ok).
Proof.
  intros f. cbv zeta. destruct (read_sig_errors f) as [A B]. split; [exact A|]. split; [exact B|].
  intros so H. destruct (read_sigs f so H) as (_ & _ & _ & X). exact X.
Qed.
Print Assumptions C150_signature_errors.
(** C150: and the object read lists exactly the signatures of the file, each list starting with the
    one at time zero (C major, 120 and 4/4 when the file gives none there); key number k is the key
    k mod 12, minor from 12 on. *)
Theorem C150_signatures : forall f so, read f = Ok so ->
  (times_ok (0%Q :: map snd (mf_keys f)) -> lists_signatures (0, false) (map (fun k => (snd k, (fst k mod 12, 12 <=? fst k))) (mf_keys f)) (so_keys so)) /\
  (times_ok (0%Q :: map fst (mf_tempos f)) -> lists_signatures 120%Q (mf_tempos f) (so_tempos so)) /\
  (times_ok (0%Q :: map snd (mf_times f)) -> lists_signatures (4, 4) (map (fun t => (snd t, fst t)) (mf_times f)) (so_times so)).
Proof. exact read_signatures. Qed.
Print Assumptions C150_signatures.
Example C150_case : read (mkMF 480 [(24, 0%Q)] [] [] []) = Err ValueError /\ read (mkMF 480 [] [(0%Q, (-1)%Q)] [] []) = Err AssertionError /\
  read (mkMF 480 [] [] [(3, 6, 0%Q)] []) = Err MidiReaderError /\
  exists so, read f42 = Ok so /\ map entry (so_keys so) = [(0%Q, (3, false)); (2%Q, (3, true))] /\
    map entry (so_tempos so) = [(0%Q, 90%Q)] /\ map entry (so_times so) = [(0%Q, (4, 4)); (1%Q, (3, 4))].
Proof. repeat (split; [reflexivity|]). eexists. split; [vm_compute; reflexivity|]. repeat split. Qed.
