(** Properties C32-C35, C76-C79: multi-track objects.  [ms_run (ms_empty r) ops] is the object
    after the calls [ops]; [trk s k] is the sequence stored in its track table under key [k]. *)
From Coq Require Import Lia.
From Coq Require Import Sorted Permutation.
From Verif Require Import PyBase M_SortedDict M_Note M_Events M_Seq M_Seqs S_Seq S_Seqs L_Sigs L_Seqs.
Open Scope Z_scope.

(** C32: create_track rejects a bad program; for a track id not registered before it stores a new
    empty track, touches no other, is idempotent, and get_track then returns that track. *)
Theorem C32_create_track : forall res ops i program name drum,
  let s := ms_run (ms_empty res) ops in
  (~ 0 <= program < 128 -> ms_create s i program name drum = (Err ValueError, s)) /\
  (0 <= program < 128 -> Forall (fun o => ~ registers i o) ops ->
     exists q s', ms_create s i program name drum = (Ok i, s') /\ fresh_seq program (m_res s) q /\ i_drum (q_instr q) = drum /\
       trk s' i = Some q /\ (forall k, k <> i -> trk s' k = trk s k) /\
       (forall p n d, 0 <= p < 128 -> ms_create s' i p n d = (Ok i, s')) /\
       (0 <= i < 128 -> forall n p d, ms_get_track s' i n p d = (Ok q, s'))).
Proof. exact create_api. Qed.
Print Assumptions C32_create_track.
(** C32: after any history without subscript reads, get_track(i) succeeds for every id in 0..127,
    returns the stored track if there is one and otherwise a new one, and disturbs no other. *)
Theorem C32_get_track : forall res ops i name program drum, Forall no_subscript ops ->
  let s := ms_run (ms_empty res) ops in
  0 <= i < 128 -> 0 <= program < 128 ->
  exists q s', ms_get_track s i name program drum = (Ok q, s') /\ trk s' i = Some q /\
    (forall k, k <> i -> trk s' k = trk s k) /\
    (forall q0, trk s i = Some q0 -> q = q0 /\ s' = s) /\
    (trk s i = None -> fresh_seq program (m_res s) q).
Proof. exact get_track_spec. Qed.
Print Assumptions C32_get_track.
(** C32: reading seqs[i] for an unregistered id stores a new empty track under the number of
    tracks present (overwriting whatever is there); get_track(i) then raises KeyError unless [i]
    is that number or was assigned before. *)
Theorem C32_subscript_read : forall res ops i,
  let s := ms_run (ms_empty res) ops in
  (~ 0 <= i < 128 -> ms_getitem s i = (Err ValueError, s)) /\
  (0 <= i < 128 -> Forall (fun o => ~ registers i o) ops ->
    let n := Z.of_nat (List.length (sd_keys_of (m_tracks s))) in
    exists q s', ms_getitem s i = (Ok q, s') /\ fresh_seq i (m_res s) q /\
      trk s' n = Some q /\ (forall k, k <> n -> trk s' k = trk s k) /\
      (n <> i -> trk s i = None -> forall nm p d, 0 <= p < 128 -> ms_get_track s' i nm p d = (Err KeyError, s'))).
Proof. exact subscript_api. Qed.
Print Assumptions C32_subscript_read.
(** A kept track with a note is lost by one subscript read. *)
Example C32_case :
  let s := ms_run (ms_empty 480) [MsCreate 1 5 "Bass" false; MsMutate 1 (QAddNote (mkN 60 100 0 5 0 4 4 false 0 1 (-1) (-1)))] in
  Forall no_subscript [MsCreate 1 5 "Bass" false; MsMutate 1 (QAddNote (mkN 60 100 0 5 0 4 4 false 0 1 (-1) (-1)))] /\
  option_map (fun q => map n_pitch (q_notes q)) (trk s 1) = Some [60] /\
  option_map q_notes (trk (snd (ms_getitem s 9)) 1) = Some [] /\
  fst (ms_get_track (snd (ms_getitem s 9)) 9 "x" 0 false) = Err KeyError.
Proof. cbv zeta. split; [repeat constructor|]. vm_compute. auto. Qed.

(** C77: seqs[i] = q is seen by get_track(i); reading seqs[i] back returns q if track i was
    created before (and nothing was read by subscript), but a new empty track if it was not. *)
Theorem C77_assign_then_read : forall res ops i q,
  let s := ms_run (ms_empty res) ops in
  (~ 0 <= i < 128 -> ms_setitem s i q = (Err ValueError, s)) /\
  (0 <= i < 128 -> exists s', ms_setitem s i q = (Ok tt, s') /\ (forall k, k <> i -> trk s' k = trk s k) /\
     (forall nm p d, ms_get_track s' i nm p d = (Ok q, s')) /\
     (Forall no_subscript ops -> (exists o, In o ops /\ creates i o) -> ms_getitem s' i = (Ok q, s')) /\
     (Forall (fun o => ~ registers i o) ops -> exists q' s'', ms_getitem s' i = (Ok q', s'') /\ fresh_seq i (m_res s) q')).
Proof. exact setitem_api. Qed.
Print Assumptions C77_assign_then_read.
(** C77: assigning a list of notes stores a sequence holding exactly that list. *)
Theorem C77_from_notes : forall l, q_notes (q_from_notes l) = l /\ latest_end l (q_total (q_from_notes l)) /\
  i_num (q_instr (q_from_notes l)) = 0.
Proof. exact from_notes_spec. Qed.
Print Assumptions C77_from_notes.
Example C77_case :
  let q := q_from_notes [mkN 60 100 0 0 0 4 4 false 0 1 (-1) (-1)] in
  let s := ms_run (ms_empty 480) [MsSet 3 q] in
  fst (ms_get_track s 3 "x" 0 false) = Ok q /\ (exists q', fst (ms_getitem s 3) = Ok q' /\ q_notes q' = []).
Proof. cbv zeta. split; [reflexivity|]. eexists; split; [vm_compute; reflexivity|reflexivity]. Qed.

(** C33: the signature list after any additions at separated non-negative times: one entry at
    time 0, the last one given there, followed by all others, sorted by time. *)
Theorem C33_signature_list : forall A (d : A) adds, times_ok (0%Q :: map fst adds) ->
  let l := sig_run (sig_default d) adds in
  exists f r, l = f :: r /\ entry f = (g_time f, at_zero d adds) /\ (g_time f == 0)%Q /\
    Permutation (map entry r) (later adds) /\ StronglySorted (fun a b => (g_time a <= g_time b)%Q) l /\
    (forall x, In x r -> (0 < g_time x)%Q).
Proof. exact sig_list_spec. Qed.
Print Assumptions C33_signature_list.
Ltac ok_times := split; simpl; [intros t H; repeat (destruct H as [<-|H]; [unfold Qle; simpl; lia|]); destruct H|
  intros a b Ha Hb; repeat (destruct Ha as [<-|Ha]; [repeat (destruct Hb as [<-|Hb];
    [solve [left; reflexivity|right; split; [vm_compute; discriminate|vm_compute; reflexivity]]|]); destruct Hb|]); destruct Ha].
(** A concrete history.  Entries at one time are not kept in the order given: the 2/4 of time 3
    was added after the 6/8 of time 3 but precedes it. *)
Definition h33 : list (Q * (Z * Z)) := [(5%Q, (3, 4)); (3%Q, (6, 8)); (3%Q, (2, 4)); (0%Q, (5, 4))].
Example C33_case : times_ok (0%Q :: map fst h33) /\
  map entry (sig_run (sig_default (4, 4)) h33) = [(0%Q, (5, 4)); (3%Q, (2, 4)); (3%Q, (6, 8)); (5%Q, (3, 4))].
Proof. split; [ok_times|reflexivity]. Qed.

(** C34: time_signature / tempo_signature (generic [sig_at]).  For t > 0 it is the last entry
    strictly before t; at t = 0 the default, unless a signature was added at 0: then it is the
    LAST entry of the whole list. *)
Theorem C34_signature_lookup : forall A (d : A) adds early none dflt t, times_ok (0%Q :: map fst adds) ->
  let l := sig_run (sig_default d) adds in
  ((t < 0)%Q -> sig_at l early none dflt t = early) /\
  ((forall u, In u (0%Q :: map fst adds) -> (u == t)%Q \/ far u t) ->
    ((0 < t)%Q -> exists e, last_before l t e /\ sig_at l early none dflt t = g_data e) /\
    ((t == 0)%Q -> (forall p, In p adds -> ~ (fst p == 0)%Q) -> sig_at l early none dflt t = d) /\
    ((t == 0)%Q -> (exists p, In p adds /\ (fst p == 0)%Q) ->
       exists l' e, l = l' ++ [e] /\ sig_at l early none dflt t = g_data e)).
Proof. exact sig_at_spec. Qed.
Print Assumptions C34_signature_lookup.
(** C34: key_signature agrees with that for t >= 0 and returns the last entry for t < 0. *)
Theorem C34_key_lookup : forall A (d : A) adds none dflt t, times_ok (0%Q :: map fst adds) ->
  let l := sig_run (sig_default d) adds in
  ((0 <= t)%Q -> forall early none', key_at l none dflt t = sig_at l early none' dflt t) /\
  ((t < 0)%Q -> (forall u, In u (0%Q :: map fst adds) -> far u t) -> exists l' e, l = l' ++ [e] /\ key_at l none dflt t = g_data e).
Proof. exact key_at_spec. Qed.
Print Assumptions C34_key_lookup.
Example C34_case : let l := sig_run (sig_default (4, 4)) h33 in
  time_signature l 4 = (6, 8) /\ time_signature l 5 = (6, 8) /\ time_signature l 6 = (3, 4) /\
  time_signature l 0 = (3, 4) /\ time_signature l (-1) = (480, 120).
Proof. vm_compute. auto. Qed.

(** C76: the slices yield exactly the entries up to the bound, in order; slice_tempo_signature
    treats the bound 0 as no bound. *)
Theorem C76_slices : forall A (d : A) adds u, times_ok (0%Q :: map fst adds) ->
  let l := sig_run (sig_default d) adds in
  let keep (s : sig A) := match u with Some b => (g_time s <= b)%Q | None => True end in
  selects keep l (slice_time l u) /\ selects keep l (slice_key l u) /\
  (~ (exists b, u = Some b /\ (b == 0)%Q) -> selects keep l (slice_tempo l u)) /\
  (forall b, (b == 0)%Q -> slice_tempo l (Some b) = l).
Proof. exact slices_spec. Qed.
Print Assumptions C76_slices.
Example C76_case : map entry (slice_time (sig_run (sig_default (4, 4)) h33) (Some 3%Q)) = [(0%Q, (5, 4)); (3%Q, (2, 4)); (3%Q, (6, 8))].
Proof. reflexivity. Qed.

(** C78: initial_tempo: the first answer is the tempo last given at time 0 (120 if none) ... *)
Theorem C78_initial_tempo : forall adds, times_ok (0%Q :: map fst adds) ->
  first_qpm (sig_run (sig_default (inject_Z DEFAULT_QPM)) adds) = at_zero (inject_Z DEFAULT_QPM) adds.
Proof. exact initial_tempo_value. Qed.
Print Assumptions C78_initial_tempo.
(** C78: ... and every later call repeats that first answer, whatever tempo is added in between. *)
Theorem C78_initial_tempo_frozen : forall adds ops,
  let l := sig_run (sig_default (inject_Z DEFAULT_QPM)) adds in
  fst (it_run (l, None) (ItAsk :: ops)) =
  Some (first_qpm l) :: map (fun o => match o with ItAsk => Some (first_qpm l) | _ => None end) ops.
Proof. exact initial_tempo_spec. Qed.
Print Assumptions C78_initial_tempo_frozen.
Example C78_case : fst (it_run (sig_default 120%Q, None) [ItAsk; ItAdd 0 90; ItAsk]) = [Some 120%Q; None; Some 120%Q].
Proof. reflexivity. Qed.

(** C35: MidiNoteSequences(midi_seq=l) succeeds exactly when sequences of equal instrument number
    can be merged; then there is one track per instrument number, holding exactly the notes of
    the sequences with that number. *)
Theorem C35_from_sequences : forall res l,
  (same_number_mergeable l -> exists s, ms_of_list res l = Ok s /\
     (forall k, trk s k = None <-> (forall q, In q l -> i_num (q_instr q) <> k)) /\
     (forall k t, trk s k = Some t -> i_num (q_instr t) = k /\
        Permutation (q_notes t) (List.concat (map q_notes (filter (fun q => i_num (q_instr q) =? k) l))) /\
        forall q, In q l -> i_num (q_instr q) = k -> q_instr q = q_instr t)) /\
  (~ same_number_mergeable l -> ms_of_list res l = Err ValueError).
Proof. exact of_list_spec. Qed.
Print Assumptions C35_from_sequences.
Definition qa : seq := q_new [mkN 60 100 0 3 0 4 4 false 2 3 (-1) (-1)] (mkI 3 "S" false) 220.
Definition qb' : seq := q_new [mkN 62 100 0 3 0 4 4 false 0 1 (-1) (-1)] (mkI 3 "S" false) 220.
Definition qc : seq := q_new [mkN 40 100 0 9 0 4 4 false 0 1 (-1) (-1)] (mkI 9 "B" false) 220.
Example C35_case : same_number_mergeable [qa; qc; qb'] /\
  exists s, ms_of_list 480 [qa; qc; qb'] = Ok s /\ option_map (fun q => map n_pitch (q_notes q)) (trk s 3) = Some [62; 60] /\
  option_map (fun q => map n_pitch (q_notes q)) (trk s 9) = Some [40].
Proof.
  split.
  - repeat apply FOP_cons; try apply FOP_nil; repeat apply Forall_cons; try apply Forall_nil;
      intros E; try discriminate E; unfold mergeable; cbn; repeat split; auto;
      intros n H; repeat (destruct H as [<-|H]; [reflexivity|]); destruct H.
  - eexists; split; [vm_compute; reflexivity|]. split; reflexivity.
Qed.

(** C79: truncate and trim never change any track.  truncate() returns the latest end of all
    notes (ValueError if there are none); truncate(from_start=f) with f >= 0 returns None when
    every note ends after f, raises AttributeError when every note ends by f, and never returns
    a time. *)
Theorem C79_truncate_all : forall res ops initial f,
  let s := ms_run (ms_empty res) ops in
  let all n := exists k q, trk s k = Some q /\ In n (q_notes q) in
  (forall n, all n -> (n_start n < n_end n)%Q) ->
  ((forall n, ~ all n) -> ms_truncate s initial None = (Err ValueError, s)) /\
  ((exists n, all n) -> exists t, ms_truncate s initial None = (Ok (Some t), s) /\
      (forall n, all n -> (n_end n <= t)%Q) /\ exists n, all n /\ n_end n = t) /\
  ((f < 0)%Q -> ms_truncate s initial (Some f) = (Err ValueError, s)) /\
  ((0 <= f)%Q -> (forall n, all n -> (f < n_end n)%Q) -> ms_truncate s initial (Some f) = (Ok None, s)) /\
  ((0 <= f)%Q -> (exists n, all n) -> (forall n, all n -> (n_end n <= f)%Q) -> ms_truncate s initial (Some f) = (Err AttributeError, s)) /\
  (forall r, ms_truncate s initial (Some f) = (Ok r, s) -> r = None).
Proof. exact truncate_all_spec. Qed.
Print Assumptions C79_truncate_all.
Example C79_case :
  let s := ms_run (ms_empty 480) [MsSet 3 qa; MsSet 9 qc] in
  ms_truncate s 0 None = (Ok (Some 3%Q), s) /\ ms_truncate s 0 (Some 5%Q) = (Err AttributeError, s) /\
  ms_truncate s 0 (Some (1#2)) = (Ok None, s).
Proof. vm_compute. auto. Qed.
(** C79: is_sorted decides ascending order. *)
Theorem C79_is_sorted : forall l, is_sorted l = true <-> StronglySorted Qle l.
Proof. exact is_sorted_spec. Qed.
Print Assumptions C79_is_sorted.
Example C79_sorted_case : is_sorted [0; 1#2; 1#2; 3]%Q = true /\ is_sorted [0; 1; 1#2]%Q = false.
Proof. split; reflexivity. Qed.
