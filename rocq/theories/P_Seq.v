(** Properties C26-C31, C71-C74: note sequences.  [q_run s ops] is the sequence after the calls
    [ops] (raising calls included). *)
From Coq Require Import Sorted Permutation.
From Verif Require Import PyBase M_Note M_Events M_Seq S_Note S_Seq L_Note2 L_Seq.
Open Scope Z_scope.

(** C26: after any history total_time is at least the end of every note shown. *)
Theorem C26_total_bounds_notes : forall notes i res ops n,
  let s := q_run (q_new notes i res) ops in
  In n (q_notes s) -> (n_end n <= q_total s)%Q.
Proof. exact total_bounds. Qed.
Print Assumptions C26_total_bounds_notes.
(** C26: add_note accepts exactly the notes of the sequence's instrument; a rejected note
    changes nothing; an accepted one is appended to the list chosen by its own drum flag. *)
Theorem C26_add_note : forall s n,
  (n_instrument n <> i_num (q_instr s) -> q_add_note s n = (Err ValueError, s)) /\
  (n_instrument n = i_num (q_instr s) -> exists s', q_add_note s n = (Ok tt, s') /\
     q_pitched s' = q_pitched s ++ (if n_drum n then [] else [n]) /\
     q_drums s' = q_drums s ++ (if n_drum n then [n] else []) /\
     (q_total s <= q_total s')%Q /\ (n_end n <= q_total s')%Q /\
     q_instr s' = q_instr s /\ q_ccs s' = q_ccs s /\ q_bends s' = q_bends s).
Proof. exact add_note_spec. Qed.
Print Assumptions C26_add_note.
(** C26: a sequence filled by add_note holds exactly the accepted notes, in order, and its total
    time is the latest end. *)
Theorem C26_add_history : forall i res l,
  let s := q_run (q_new [] i res) (map QAddNote l) in
  selects (fun n => n_instrument n = i_num i /\ n_drum n = false) l (q_pitched s) /\
  selects (fun n => n_instrument n = i_num i /\ n_drum n = true) l (q_drums s) /\
  latest_end (q_pitched s ++ q_drums s) (q_total s).
Proof. exact add_history. Qed.
Print Assumptions C26_add_history.
(** C26: append and extend add the notes at the end of the list shown and raise the total time to
    the latest of their ends, no further; an empty list raises ValueError and changes nothing. *)
Theorem C26_extend : forall s l, (0 <= q_total s)%Q ->
  (l = [] -> q_extend s l = (Err ValueError, s)) /\
  (l <> [] -> exists s', q_extend s l = (Ok tt, s') /\ q_notes s' = q_notes s ++ l /\
     q_instr s' = q_instr s /\ q_ccs s' = q_ccs s /\ q_bends s' = q_bends s /\ q_res s' = q_res s /\ q_steps s' = q_steps s /\
     (q_total s <= q_total s')%Q /\ (forall n, In n l -> (n_end n <= q_total s')%Q) /\
     ((q_total s' == q_total s)%Q \/ exists n, In n l /\ (q_total s' == n_end n)%Q)).
Proof. exact extend_spec. Qed.
Print Assumptions C26_extend.
Theorem C26_append : forall s n, (0 <= q_total s)%Q ->
  q_notes (q_append1 s n) = q_notes s ++ [n] /\ (q_total (q_append1 s n) == Qmaxb (q_total s) (n_end n))%Q.
Proof. exact append1_spec. Qed.
Print Assumptions C26_append.
Definition strings : instr := mkI 3 "Strings" false.
Definition nt (p : Z) (s e : Q) : note := mkN p 100 0 3 0 4 4 false s e (-1) (-1).
Example C26_case :
  let s := q_run (q_new [] strings 220) [QAddNote (nt 60 0 1); QAddNote (mk0 61 0 9); QExtend []; QInsert (nt 62 (1#2) 4); QAppend (nt 64 1 3)] in
  map n_pitch (q_notes s) = [60; 62; 64] /\ q_total s = 4%Q.
Proof. vm_compute; auto. Qed.

(** C27: truncate. *)
Theorem C27_truncate : forall s t,
  let r := q_truncate s t in
  selects (fun n => (n_end n <= t)%Q) (q_notes s) (q_notes r) /\
  (q_total r == Qmaxb 0 (Qminb (q_total s) t))%Q /\ q_instr r = q_instr s /\
  ((forall n, In n (q_notes s) -> (n_end n <= q_total s)%Q) -> forall n, In n (q_notes r) -> (n_end n <= q_total r)%Q).
Proof. exact truncate_spec. Qed.
Print Assumptions C27_truncate.
Example C27_case : map n_pitch (q_notes (q_truncate (q_new [nt 60 0 1; nt 62 0 5; nt 64 1 3] strings 220) 3)) = [60; 64].
Proof. reflexivity. Qed.

(** C28: slice of a sequence of valid notes that belong to it, window starting at or after 0:
    exactly the notes that start in the window, unchanged. *)
Theorem C28_slice : forall s a b strict, (0 <= a)%Q ->
  (forall n, In n (q_notes s) -> belongs s n /\ (n_start n < n_end n)%Q) ->
  (strict = false \/ q_is_quantized s = true) ->
  exists r, q_slice s a b strict = Ok r /\
    selects (fun n => (a <= n_start n)%Q /\ (n_start n < b)%Q) (q_notes s) (q_notes r) /\
    (q_total r == Qmaxb 0 (Qminb (q_total s) b))%Q /\ q_instr r = q_instr s /\ q_res r = q_res s /\
    (forall n, In n (q_notes r) -> (b < n_end n)%Q -> (q_total r < n_end n)%Q).
Proof. exact slice_spec. Qed.
Print Assumptions C28_slice.
(** C28: strict slicing of an unquantised sequence, and slicing onto a note of another instrument, raise. *)
Theorem C28_slice_errors : forall s a b,
  (q_is_quantized s = false -> q_slice s a b true = Err ValueError) /\
  (forall n strict, In n (q_notes s) -> (a <= n_start n)%Q -> (n_start n < b)%Q ->
     n_instrument n <> i_num (q_instr s) -> q_slice s a b strict = Err ValueError).
Proof. exact slice_errors. Qed.
Print Assumptions C28_slice_errors.
Example C28_case : exists r, q_slice (q_new [nt 60 0 1; nt 62 1 5; nt 64 3 4] strings 220) (1#2) 3 false = Ok r /\
  map n_pitch (q_notes r) = [62] /\ map n_end (q_notes r) = [5%Q] /\ q_total r = 3%Q.
Proof. eexists; split; [vm_compute; reflexivity|]. auto. Qed.

(** C29: merge succeeds exactly on equal instruments and resolutions with all notes carrying that
    instrument number; then no note is lost or invented and total_time is the latest end. *)
Theorem C29_merge : forall s o,
  let ok := q_instr s = q_instr o /\ q_res s = q_res o /\
            forall n, In n (q_notes s ++ q_notes o) -> n_instrument n = i_num (q_instr s) in
  (ok -> exists s', q_merge s o = (Ok tt, s') /\ Permutation (q_notes s') (q_notes s ++ q_notes o) /\
         latest_end (q_notes s') (q_total s') /\ q_instr s' = q_instr s /\ q_res s' = q_res s /\ q_ccs s' = q_ccs s /\ q_bends s' = q_bends s) /\
  (~ ok -> q_merge s o = (Err ValueError, s)).
Proof. exact merge_spec. Qed.
Print Assumptions C29_merge.
(** C29: the merged notes are in order when no two times differ by less than the tolerance. *)
Theorem C29_merge_sorted : forall s o s', q_merge s o = (Ok tt, s') ->
  all_separated (q_notes s ++ q_notes o) -> in_order (q_notes s').
Proof. exact merge_sorted. Qed.
Print Assumptions C29_merge_sorted.
Example C29_case :
  let r := snd (q_merge (q_new [nt 60 0 1; nt 62 2 5] strings 220) (q_new [nt 64 1 3] strings 220)) in
  map n_pitch (q_notes r) = [60; 64; 62] /\ q_total r = 5%Q.
Proof. vm_compute; auto. Qed.

(** C30: + raises ValueError unless both sequences are empty (and have the same instrument). *)
Theorem C30_add_never_concatenates : forall s o,
  (q_notes s <> [] \/ q_notes o <> [] \/ q_instr s <> q_instr o -> q_add s o = Err ValueError) /\
  (q_notes s = [] -> q_notes o = [] -> q_instr s = q_instr o -> exists r, q_add s o = Ok r /\ q_notes r = []).
Proof. exact add_spec. Qed.
Print Assumptions C30_add_never_concatenates.
(** C30: extract with admissible split times raises ValueError as soon as one note starts in the
    windows, and otherwise returns only empty sequences. *)
Theorem C30_extract_never_extracts : forall s splits,
  q_is_quantized s = false -> (2 <= List.length splits)%nat -> ascending splits ->
  (forall t, In t (removelast splits) -> (t < q_total s)%Q) ->
  ((exists n, In n (q_notes s) /\ in_windows splits (n_start n)) -> q_extract s splits = Err ValueError) /\
  ((forall n, In n (q_notes s) -> ~ in_windows splits (n_start n)) ->
     exists l, q_extract s splits = Ok l /\ List.length l = (List.length splits - 1)%nat /\ forall r, In r l -> q_notes r = []).
Proof. exact extract_spec. Qed.
Print Assumptions C30_extract_never_extracts.
(** C30: extract and shift_times raise on an empty or fully quantised sequence. *)
Theorem C30_quantised_or_empty_raises : forall s, (forall n, In n (q_notes s) -> n_is_quantized n = true) ->
  (forall splits, q_extract s splits = Err ValueError) /\ (forall d, q_shift s d = (Err ValueError, s)).
Proof. exact quantised_raises. Qed.
Print Assumptions C30_quantised_or_empty_raises.
(** C30: split raises AttributeError for every sequence with positive total time, whatever the
    split points. *)
Theorem C30_split_always_raises : forall s splits skip, (0 < q_total s)%Q ->
  q_split s splits skip = Err AttributeError.
Proof. exact split_raises. Qed.
Print Assumptions C30_split_always_raises.
Example C30_case : q_extract (q_new [nt 60 0 1; nt 62 2 5] strings 220) [0; 1; 3]%Q = Err ValueError /\
  q_is_quantized (q_new [nt 60 0 1; nt 62 2 5] strings 220) = false.
Proof. split; reflexivity. Qed.

(** C31: shift_times and stretch act on every shown note alike. *)
Theorem C31_shift : forall s d,
  (q_is_quantized s = true -> q_shift s d = (Err ValueError, s)) /\
  (q_is_quantized s = false -> exists s', q_shift s d = (Ok tt, s') /\
     Forall2 (affine_note 1 d) (q_notes s) (q_notes s') /\
     (q_total s' == Qmaxb 0 (q_total s + d))%Q).
Proof. exact shift_spec. Qed.
Print Assumptions C31_shift.
Theorem C31_stretch : forall s k,
  Forall2 (affine_note k 0) (q_notes s) (q_notes (q_stretch s k)) /\
  latest_end (q_notes (q_stretch s k)) (q_total (q_stretch s k)) /\
  ((0 <= k)%Q -> latest_end (q_notes s) (q_total s) -> (q_total (q_stretch s k) == k * q_total s)%Q).
Proof. exact stretch_spec. Qed.
Print Assumptions C31_stretch.
Example C31_case : map n_end (q_notes (q_stretch (q_new [nt 60 0 1; nt 62 2 5] strings 220) 2)) = [2; 10]%Q.
Proof. reflexivity. Qed.

(** C71: quantising a sequence that holds a control change always raises and changes neither the
    notes nor the controllers nor the total time. *)
Theorem C71_quantise_fails_with_controllers : forall s sps amount, q_ccs s <> [] ->
  exists e s', q_quantize s sps amount = (Err e, s') /\ q_pitched s' = q_pitched s /\ q_drums s' = q_drums s /\
    q_ccs s' = q_ccs s /\ q_total s' = q_total s.
Proof. exact quantize_cc_fails. Qed.
Print Assumptions C71_quantise_fails_with_controllers.
(** C71: without controllers, and with valid notes, it succeeds and replaces every note, in order,
    by its quantised version. *)
Theorem C71_quantise_succeeds : forall s sps amount, q_ccs s = [] ->
  (forall n, In n (q_notes s) -> quantisable n) -> 0 < sps -> (0 < amount)%Q -> (amount <= 1)%Q ->
  exists s', q_quantize s sps amount = (Ok tt, s') /\
    Forall2 (fun n n' => n_quantize_in_place n sps amount None = (Ok tt, n')) (q_notes s) (q_notes s') /\
    latest_end (q_notes s') (q_total s').
Proof. exact quantize_seq_ok. Qed.
Print Assumptions C71_quantise_succeeds.
(** C71: the step counter.  Whether or not the call succeeds, it becomes the largest of its old value
    and the end steps the notes had before the call; if a note cannot be quantised only the notes
    before it count, and the error is the call's. *)
Theorem C71_quantise_step_counter : forall s sps amount,
  exists p q, q_notes s = p ++ q /\ largest_step p (q_steps s) (q_steps (snd (q_quantize s sps amount))) /\
    (q <> [] -> exists n q' e, q = n :: q' /\ n_quantize n sps amount None = Err e /\ fst (q_quantize s sps amount) = Err e).
Proof. exact quantize_steps. Qed.
Print Assumptions C71_quantise_step_counter.
Example C71_case : exists s', q_quantize (q_new [nt 60 0 1; nt 62 2 5] strings 220) 4 (1#2) = (Ok tt, s') /\
  map n_qs (q_notes s') = [0; 8]%Q.
Proof. eexists; split; [vm_compute; reflexivity|reflexivity]. Qed.

(** C72: a clone shows the same notes for a pitched sequence, and no note for a drum sequence,
    with the same total time, controllers, bends, instrument and resolution. *)
Theorem C72_clone : forall s, (0 <= q_total s)%Q ->
  let c := q_clone s in
  (i_drum (q_instr s) = false -> q_notes c = q_notes s) /\ (i_drum (q_instr s) = true -> q_notes c = []) /\
  (q_total c == q_total s)%Q /\ q_ccs c = q_ccs s /\ q_bends c = q_bends s /\ q_instr c = q_instr s /\ q_res c = q_res s.
Proof. exact clone_spec. Qed.
Print Assumptions C72_clone.
Example C72_case : q_notes (q_clone (q_new [nt 36 0 1] (mkI 3 "Kit" true) 220)) = [] /\
  List.length (q_notes (q_new [nt 36 0 1] (mkI 3 "Kit" true) 220)) = 1%nat.
Proof. split; reflexivity. Qed.

(** C73: insert adds exactly the note, keeps an ordered sequence ordered (times separated), and
    recomputes the total time. *)
Theorem C73_insert : forall s n,
  Permutation (q_notes (q_insert s n)) (n :: q_notes s) /\
  latest_end (q_notes (q_insert s n)) (q_total (q_insert s n)) /\
  (all_separated (n :: q_notes s) -> in_order (q_notes s) -> in_order (q_notes (q_insert s n))).
Proof. exact insert_spec. Qed.
Print Assumptions C73_insert.
(** C73: cut_in_place keeps a prefix; cut raises on an empty prefix, and otherwise sets the total
    time to the old one or the end of the last note kept ([z]), if that is earlier. *)
Theorem C73_cut : forall s k,
  let m := Z.to_nat (if 0 <=? k then k else Z.of_nat (List.length (q_notes s)) + k) in
  q_notes (q_cut_in_place s k) = firstn m (q_notes s) /\
  latest_end (q_notes (q_cut_in_place s k)) (q_total (q_cut_in_place s k)) /\
  (firstn m (q_notes s) = [] -> q_cut s k = Err IndexError) /\
  (firstn m (q_notes s) <> [] -> exists r z, q_cut s k = Ok r /\ q_notes r = firstn m (q_notes s) /\ q_instr r = q_instr s /\
     nth_error (rev (firstn m (q_notes s))) 0 = Some z /\ (q_total r == Qmaxb 0 (Qminb (q_total s) (n_end z)))%Q).
Proof. exact cut_spec. Qed.
Print Assumptions C73_cut.
Example C73_case : map n_pitch (q_notes (q_insert (q_new [nt 60 0 1; nt 62 2 5] strings 220) (nt 61 1 2))) = [60; 61; 62] /\
  map n_pitch (q_notes (q_cut_in_place (q_new [nt 60 0 1; nt 62 2 5; nt 64 6 7] strings 220) (-1))) = [60; 62].
Proof. split; reflexivity. Qed.

(** C74: as_note_seq returns the pitches by ascending start time and leaves the same notes, so
    sorted, in the sequence; sorting is stable. *)
Theorem C74_as_note_seq : forall s,
  let r := q_as_note_seq s in
  fst r = map n_pitch (q_notes (snd r)) /\ Permutation (q_notes (snd r)) (q_notes s) /\
  StronglySorted (fun a b => (n_start a <= n_start b)%Q) (q_notes (snd r)) /\
  (forall t, selects (fun n => (n_start n == t)%Q) (q_notes s) (filter (fun n => Qeq_bool (n_start n) t) (q_notes (snd r)))) /\
  q_total (snd r) = q_total s.
Proof. exact as_note_seq_spec. Qed.
Print Assumptions C74_as_note_seq.
Example C74_case : fst (q_as_note_seq (q_new [nt 64 2 5; nt 60 0 1; nt 62 2 3] strings 220)) = [60; 64; 62].
Proof. reflexivity. Qed.

(** C75: calculate_min_step is 0 or the distance between two notes, consecutive by start, that do
    not touch; it is never more than any such distance. *)
Theorem C75_min_step : forall s, (forall n, In n (q_notes s) -> (n_start n < n_end n)%Q) ->
  let l := py_sort start_lt (q_notes s) in
  let silent_gap a b := exists p q, l = p ++ a :: b :: q /\ (n_end a < n_start b)%Q in
  (0 <= q_min_step s)%Q /\
  ((forall a b, ~ silent_gap a b) -> (q_min_step s == 0)%Q) /\
  (forall a b, silent_gap a b -> (0 < q_min_step s)%Q /\ (q_min_step s <= n_start b - n_start a)%Q) /\
  ((exists a b, silent_gap a b) -> exists a b, silent_gap a b /\ (q_min_step s == n_start b - n_start a)%Q).
Proof. exact min_step_spec. Qed.
Print Assumptions C75_min_step.
Example C75_case : (q_min_step (q_new [nt 64 2 5; nt 60 0 1; nt 62 6 7] strings 220) == 2)%Q.
Proof. reflexivity. Qed.
