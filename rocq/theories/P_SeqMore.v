(** Properties C153-C157: cached answers of a sequence, orders, counts, resolution, relative velocities. *)
From Coq Require Import Lia Lqa Qround Sorted Permutation.
From Verif Require Import PyBase M_SortedDict M_Note M_Events M_Seq M_Seqs M_SeqMore S_Seq S_Seqs S_SeqMore L_Seqs L_SeqMore.
Open Scope Z_scope.

(** C153: asking never changes the sequence: the notes are those of the modifying calls alone (nothing is truncated). *)
Theorem C153_asking_changes_nothing : forall s tempos ops, x_seq (x_run (x_new s tempos) ops) = q_run s (changes ops).
Proof. intros. apply (x_seq_run ops (x_new s tempos)). Qed.
Print Assumptions C153_asking_changes_nothing.
(** C153: the first truncate_to_last_event(offset) answers the end of the last note plus the offset ... *)
Theorem C153_last_event : forall s tempos ops off, Forall (fun o => ~ asks_last off o) ops ->
  let st := x_run (x_new s tempos) ops in
  exists t, end_of_last (q_notes (q_run s (changes ops))) t /\ fst (x_step st (XLast (Some off))) = Some (t + off)%Q.
Proof. exact last_first. Qed.
Print Assumptions C153_last_event.
(** C153: ... and every later call with an equal offset repeats it, whatever was done to the sequence in between. *)
Theorem C153_last_event_frozen : forall st off off' ops, (off' == off)%Q ->
  fst (x_step (x_run (snd (x_step st (XLast (Some off)))) ops) (XLast (Some off'))) = fst (x_step st (XLast (Some off))).
Proof. exact last_frozen. Qed.
Print Assumptions C153_last_event_frozen.
(** C153: truncate_to_last_event(None) answers None and caches nothing. *)
Theorem C153_no_offset : forall st, x_step st (XLast None) = (None, st).
Proof. reflexivity. Qed.
Print Assumptions C153_no_offset.
(** C153: initial_tempo() is 480 without tempo signatures, 0 with one at time 0 (its time, not its tempo), None otherwise ... *)
Theorem C153_initial_tempo : forall s tempos ops, ~ In XTempo ops ->
  let l := tempos_after tempos ops in let a := fst (x_step (x_run (x_new s tempos) ops) XTempo) in
  (l = [] -> a = Some 480%Q) /\
  (l <> [] -> (exists p, In p l /\ (fst p == 0)%Q) -> exists z, a = Some z /\ (z == 0)%Q) /\
  (l <> [] -> (forall p, In p l -> ~ (fst p == 0)%Q) -> a = None).
Proof. exact tempo_answer. Qed.
Print Assumptions C153_initial_tempo.
(** C153: ... and stays what it was when first asked. *)
Theorem C153_initial_tempo_frozen : forall st ops,
  fst (x_step (x_run (snd (x_step st XTempo)) ops) XTempo) = fst (x_step st XTempo).
Proof. exact tempo_frozen. Qed.
Print Assumptions C153_initial_tempo_frozen.
Definition n153 (a b : Q) : note := mkN 60 100 0 0 0 4 4 false a b (-1) (-1).
Example C153_case :
  let st := x_run (x_new (q_new [n153 0 2] generic 220) []) [XCall (QAppend (n153 1 3)); XTempo] in
  Forall (fun o => ~ asks_last 1 o) [XCall (QAppend (n153 1 3)); XTempo] /\
  (exists q, fst (x_step st (XLast (Some 1%Q))) = Some q /\ (q == 4)%Q) /\
  (exists q, fst (x_step (x_run st [XLast (Some 1%Q); XCall (QAppend (n153 1 9))]) (XLast (Some 1%Q))) = Some q /\ (q == 4)%Q) /\
  (exists q, fst (x_step (x_run st [XLast (Some 1%Q); XCall (QAppend (n153 1 9))]) (XLast (Some 2%Q))) = Some q /\ (q == 11)%Q).
Proof.
  cbv zeta. split; [repeat constructor; intros []|]. repeat split; eexists; (split; [vm_compute; reflexivity|reflexivity]).
Qed.
Example C153_tempo_case :
  fst (x_step (x_run (x_new (q_new [] generic 220) []) [XTempos [(2, 90); (0, 60)]%Q]) XTempo) = Some 0%Q /\
  fst (x_step (x_run (x_new (q_new [] generic 220) []) [XTempos [(2, 90)]%Q]) XTempo) = None.
Proof. vm_compute. auto. Qed.

(** C154: sequences sort by instrument number, and by address (not by position) within one number. *)
Theorem C154_sorting_sequences : forall l : list (Z * seq), NoDup (map fst l) -> let r := py_sort obj_ltb l in
  Permutation l r /\
  StronglySorted (fun a b => i_num (q_instr (snd a)) < i_num (q_instr (snd b)) \/
     (i_num (q_instr (snd a)) = i_num (q_instr (snd b)) /\ fst a < fst b)) r.
Proof. exact sort_objs. Qed.
Print Assumptions C154_sorting_sequences.
(** C154: instruments sort by number; != is the negation of ==. *)
Theorem C154_sorting_instruments : forall l, let r := py_sort instr_ltb l in
  Permutation l r /\ StronglySorted (fun a b => i_num a <= i_num b) r.
Proof. exact sort_instr. Qed.
Print Assumptions C154_sorting_instruments.
(** C154 *)
Theorem C154_instrument_ne : forall a b, instr_neb a b = true <-> a <> b.
Proof. exact instr_ne_ok. Qed.
Print Assumptions C154_instrument_ne.
Example C154_case : let q k := q_new [] (mkI k "x" false) 220 in
  map fst (py_sort obj_ltb [(7, q 5); (9, q 2); (3, q 5)]) = [9; 3; 7].
Proof. reflexivity. Qed.

(** C155: after any history: the tracks in ascending order of their keys, their instruments, how many there
    are and how many different instrument numbers occur. *)
Theorem C155_counts : forall res ops, let s := ms_run (ms_empty res) ops in
  exists ks qs, StronglySorted Z.lt ks /\ (forall k, In k ks <-> trk s k <> None) /\
    Forall2 (fun k q => trk s k = Some q) ks qs /\
    num_track s = List.length ks /\ ms_instruments s = map q_instr qs /\
    distinct_count (map (fun q => i_num (q_instr q)) qs) (num_instruments s) /\ (num_instruments s <= num_track s)%nat.
Proof. exact counts_ok. Qed.
Print Assumptions C155_counts.
(** C155 *)
Theorem C155_track_length : forall res ops k, let s := ms_run (ms_empty res) ops in
  (forall q, trk s k = Some q -> instrument_midi_seq_len s k = List.length (q_notes q)) /\
  (trk s k = None -> instrument_midi_seq_len s k = 0%nat).
Proof. exact len_ok. Qed.
Print Assumptions C155_track_length.
(** C155: built from a list of sequences: one track per instrument number; the lengths add up. *)
Theorem C155_counts_of_list : forall res l s, same_number_mergeable l -> ms_of_list res l = Ok s ->
  num_instruments s = num_track s /\ distinct_count (map (fun q => i_num (q_instr q)) l) (num_track s) /\
  (forall k, instrument_midi_seq_len s k =
     fold_right Nat.add 0%nat (map (fun q => List.length (q_notes q)) (filter (fun q => i_num (q_instr q) =? k) l))).
Proof. exact list_counts. Qed.
Print Assumptions C155_counts_of_list.
Example C155_case :
  let s := ms_run (ms_empty 220) [MsCreate 4 9 "a" false; MsCreate 2 9 "b" false; MsCreate 7 1 "c" true] in
  num_track s = 3%nat /\ num_instruments s = 2%nat /\ map i_num (ms_instruments s) = [9; 9; 1].
Proof. vm_compute. auto. Qed.
Definition qd (k : Z) (a b : Q) : seq := q_new [mkN 60 100 0 k 0 4 4 false a b (-1) (-1)] (mkI k "S" false) 220.
Example C155_list_case : same_number_mergeable [qd 3 0 1; qd 9 0 1; qd 3 2 3] /\
  exists s, ms_of_list 220 [qd 3 0 1; qd 9 0 1; qd 3 2 3] = Ok s /\ num_track s = 2%nat /\ instrument_midi_seq_len s 3 = 2%nat.
Proof.
  split; [|eexists; split; [vm_compute; reflexivity|vm_compute; auto]].
  repeat apply FOP_cons; try apply FOP_nil; repeat apply Forall_cons; try apply Forall_nil;
    intros E; try discriminate E; unfold mergeable; cbn; repeat split; auto;
    intros n H; repeat (destruct H as [<-|H]; [reflexivity|]); destruct H.
Qed.

(** C156: assigning the resolution changes that number and no note, whatever the old resolution was. *)
Theorem C156_resolution : forall s v, q_res (q_set_resolution s v) = v /\ same_but_resolution s (q_set_resolution s v).
Proof. exact resolution_ok. Qed.
Print Assumptions C156_resolution.
Example C156_case : let s := q_set_resolution (q_new [n153 0 2] generic 220) 480 in q_res s = 480 /\ q_notes s = [n153 0 2].
Proof. vm_compute. auto. Qed.

(** C157: relative velocities: as many answers, all in 0..127 ... *)
Theorem C157_range : forall rnd l f w, scale_relative rnd l f = Some w -> List.length w = List.length l /\ Forall (fun y => 0 <= y <= 127) w.
Proof. exact scale_range. Qed.
Print Assumptions C157_range.
(** C157: ... ordered like the velocities, under every monotone rounding of the arithmetic ... *)
Theorem C157_monotone : forall rnd l f w, rounding rnd -> (0 <= f)%Q -> (forall v, In v l -> 0 <= v) -> scale_relative rnd l f = Some w ->
  forall i j v u v' u', nth_error l i = Some v -> nth_error l j = Some u -> nth_error w i = Some v' -> nth_error w j = Some u' -> v <= u -> v' <= u'.
Proof. exact scale_mono. Qed.
Print Assumptions C157_monotone.
(** C157: ... and, in exact arithmetic, the velocity times the factor, cut at 127 and rounded down; no answer when all are 0. *)
Theorem C157_exact : forall l f, (0 <= f)%Q -> (forall v, In v l -> 0 <= v) ->
  (l <> [] -> (forall v, In v l -> v = 0) -> scale_relative (fun x => x) l f = None) /\
  (l = [] -> scale_relative (fun x => x) l f = Some []) /\
  ((exists v, In v l /\ v <> 0) -> scale_relative (fun x => x) l f = Some (map (fun v => Qfloor (Qminb 127 (inject_Z v * f))) l)).
Proof. exact scale_exact. Qed.
Print Assumptions C157_exact.
(** C157: same_start_time compares a note with itself: always True for a positive tolerance. *)
Theorem C157_same_start_refuted : forall n tol, (0 < tol)%Q -> same_start_time n tol = true.
Proof. exact same_start_always. Qed.
Print Assumptions C157_same_start_refuted.
Example C157_case : rounding (fun x => x) /\ scale_relative (fun x => x) [20; 26; 0; 100] (3 # 2) = Some [30; 39; 0; 127].
Proof. split; [split; [auto|reflexivity]|reflexivity]. Qed.
