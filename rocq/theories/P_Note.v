(** Properties C14-C21: notes. *)
From Coq Require Import Qround.
From Verif Require Import PyBase M_Note S_Note L_Note L_Note2.
Open Scope Z_scope.

(** C14: construction succeeds exactly on acceptable arguments; every ranged field is moved to
    the nearest admissible value (so in-range arguments are kept), the others are kept. *)
Theorem C14_note_construction : forall a,
  (accepts a -> exists n, n_new a = Ok n /\
    nearest_in 0 127 (n_pitch a) (n_pitch n) /\ nearest_in 0 127 (n_velocity a) (n_velocity n) /\
    nearest_in 0 255 (n_program a) (n_program n) /\ nearest_in 0 127 (n_instrument a) (n_instrument n) /\
    nearest_in 1 255 (n_num a) (n_num n) /\ nearest_in 1 255 (n_den a) (n_den n) /\
    n_voice n = n_voice a /\ n_drum n = n_drum a /\ n_start n = n_start a /\ n_end n = n_end a /\
    n_qs n = n_qs a /\ n_qe n = n_qe a) /\
  (~ accepts a -> n_new a = Err AssertionError).
Proof. exact n_new_lemma. Qed.
Print Assumptions C14_note_construction.
Example C14_case : n_new (mkN 200 (-3) 300 5 0 4 8 false 0 1 (-1) (-1)) =
  Ok (mkN 127 0 255 5 0 4 8 false 0 1 (-1) (-1)) /\
  n_new (mkN 60 100 0 0 0 4 6 false 0 1 (-1) (-1)) = Err AssertionError.
Proof. split; reflexivity. Qed.

(** C14: the field ranges survive every later call on the note. *)
Theorem C14_ranges_invariant : forall a n ops, n_new a = Ok n -> in_ranges (n_run n ops).
Proof. intros a n ops H. exact (proj1 (run_ranges ops n (proj1 (n_new_ranges a n H)))). Qed.
Print Assumptions C14_ranges_invariant.

(** C15: which time assignments are accepted; a rejected one changes nothing. *)
Theorem C15_start_setter : forall n v,
  ((0 <= v)%Q /\ (v < n_end n)%Q -> n_set_start n v = (Ok tt, with_start n v)) /\
  (~ ((0 <= v)%Q /\ (v < n_end n)%Q) -> n_set_start n v = (Err ValueError, n)).
Proof. exact n_set_start_spec. Qed.
Print Assumptions C15_start_setter.
Theorem C15_end_setter : forall n v,
  ((0 <= v)%Q /\ (n_start n < v)%Q -> n_set_end n v = (Ok tt, with_end n v)) /\
  (~ ((0 <= v)%Q /\ (n_start n < v)%Q) -> n_set_end n v = (Err ValueError, n)).
Proof. exact n_set_end_spec. Qed.
Print Assumptions C15_end_setter.
(** C15: any history of setters and quantisations keeps start < end. *)
Theorem C15_setters_keep_valid : forall a n ops, n_new a = Ok n -> Forall not_shift ops ->
  (n_start (n_run n ops) < n_end (n_run n ops))%Q.
Proof. exact run_keeps_valid. Qed.
Print Assumptions C15_setters_keep_valid.
Example C15_case :
  let n := n_run (mk0 60 1 2) [NSetStart 3; NSetEnd 5; NSetStart 3; NSetEnd (-1)] in
  n = with_start (with_end (mk0 60 1 2) 5) 3.
Proof. reflexivity. Qed.

(** C16: equality. *)
Theorem C16_eq_reflexive_symmetric : forall a b, n_eqb a a = true /\ n_eqb a b = n_eqb b a.
Proof. exact n_eqb_refl_sym. Qed.
Print Assumptions C16_eq_reflexive_symmetric.
(** C16: equality is not transitive. *)
Theorem C16_eq_not_transitive : exists a b c, n_new a = Ok a /\ n_new b = Ok b /\ n_new c = Ok c /\
  n_eqb a b = true /\ n_eqb b c = true /\ n_eqb a c = false.
Proof. exact n_eqb_not_trans. Qed.
Print Assumptions C16_eq_not_transitive.
(** C16: what < decides. *)
Theorem C16_lt_means : forall a b, n_ltb a b = true <->
  before_tol (n_start a) (n_start b) \/
  (within_tol (n_start a) (n_start b) /\ before_tol (n_end a) (n_end b)) \/
  (within_tol (n_start a) (n_start b) /\ within_tol (n_end a) (n_end b) /\ n_pitch a < n_pitch b).
Proof. exact n_ltb_iff. Qed.
Print Assumptions C16_lt_means.
(** C16: < is irreflexive and asymmetric. *)
Theorem C16_lt_irreflexive_asymmetric : forall a b,
  n_ltb a a = false /\ (n_ltb a b = true -> n_ltb b a = false).
Proof. exact n_ltb_irr_asym. Qed.
Print Assumptions C16_lt_irreflexive_asymmetric.
(** C16: < is transitive on times that are equal or further apart than the tolerance. *)
Theorem C16_lt_transitive_when_separated : forall a b c,
  separated (n_start a) (n_start b) -> separated (n_start b) (n_start c) -> separated (n_start a) (n_start c) ->
  separated (n_end a) (n_end b) -> separated (n_end b) (n_end c) -> separated (n_end a) (n_end c) ->
  n_ltb a b = true -> n_ltb b c = true -> n_ltb a c = true.
Proof. exact n_ltb_trans_sep. Qed.
Print Assumptions C16_lt_transitive_when_separated.
Example C16_case : n_ltb (mk0 60 0 1) (mk0 60 0 2) = true /\ n_ltb (mk0 60 0 2) (mk0 60 1 2) = true.
Proof. split; reflexivity. Qed.
(** C16: < has cycles in general. *)
Theorem C16_lt_not_transitive : exists a b c, n_new a = Ok a /\ n_new b = Ok b /\ n_new c = Ok c /\
  n_ltb a b = true /\ n_ltb b c = true /\ n_ltb a c = false /\ n_ltb c a = true.
Proof. exact n_ltb_not_trans. Qed.
Print Assumptions C16_lt_not_transitive.
(** C16: what <= decides. *)
Theorem C16_le_means : forall a b, n_leb a b = true <->
  (n_start a < n_start b)%Q \/ ((n_start a <= n_start b + tol)%Q /\ (n_end a <= n_end b + tol)%Q).
Proof. exact n_leb_iff. Qed.
Print Assumptions C16_le_means.

(** C17: overlap of two valid notes. *)
Theorem C17_overlap_is_shared_instant : forall a b, (n_start a < n_end a)%Q -> (n_start b < n_end b)%Q ->
  (n_overlaps a b = true <-> exists t, sounds_at a t /\ sounds_at b t).
Proof. exact n_overlaps_iff. Qed.
Print Assumptions C17_overlap_is_shared_instant.
(** C17: symmetric. *)
Theorem C17_overlap_symmetric : forall a b, (n_start a < n_end a)%Q -> (n_start b < n_end b)%Q ->
  n_overlaps a b = n_overlaps b a.
Proof. exact n_overlaps_sym. Qed.
Print Assumptions C17_overlap_symmetric.
Example C17_case : n_overlaps (mk0 60 0 2) (mk0 61 1 3) = true /\ n_overlaps (mk0 60 0 1) (mk0 61 1 3) = false.
Proof. split; reflexivity. Qed.

(** C18: errors and sign. *)
Theorem C18_step_total_and_nonnegative : forall t sps amount fl,
  (quantize_step t sps amount fl = Err ValueError <-> sps <= 0 \/ (amount <= 0)%Q) /\
  (0 < sps -> (0 < amount)%Q -> exists k, quantize_step t sps amount fl = Ok k /\ 0 <= k).
Proof. exact quantize_step_err. Qed.
Print Assumptions C18_step_total_and_nonnegative.
(** C18: monotone. *)
Theorem C18_step_monotone : forall t1 t2 sps amount fl k1 k2, (t1 <= t2)%Q ->
  quantize_step t1 sps amount fl = Ok k1 -> quantize_step t2 sps amount fl = Ok k2 -> k1 <= k2.
Proof. exact quantize_step_mono. Qed.
Print Assumptions C18_step_monotone.
(** C18: within one step of t*sps + (1-amount), below it or above it. *)
Theorem C18_step_near : forall t sps amount fl k, quantize_step t sps amount fl = Ok k ->
  let x := (t * inject_Z sps + (1 - amount))%Q in
  (0 <= x)%Q ->
  if fl then (inject_Z k <= x)%Q /\ (x < inject_Z k + 1)%Q
  else (x <= inject_Z k)%Q /\ (inject_Z k < x + 1)%Q.
Proof. exact quantize_step_near. Qed.
Print Assumptions C18_step_near.
Example C18_case : quantize_step (13#10) 4 (1#2) true = Ok 5 /\ quantize_step (13#10) 4 (1#2) false = Ok 6.
Proof. split; reflexivity. Qed.

(** C19: whenever quantisation succeeds the note is valid, and its steps are ordered. *)
Theorem C19_quantised_note_valid : forall n sps amount ms n',
  n_quantize_in_place n sps amount ms = (Ok tt, n') ->
  (0 <= n_qs n')%Q /\ (n_qs n' < n_qe n')%Q /\ (0 <= n_start n')%Q /\ (n_start n' < n_end n')%Q.
Proof. exact quantize_ok_valid. Qed.
Print Assumptions C19_quantised_note_valid.
(** C19: quantisation of a valid non-negative note succeeds for every rate >= 1 and amount in
    (0,1]; the steps are the floor and ceiling of t*sps + (1-amount) (a note that was quantised
    before gets its length divided by sps once more), and the times move by at most one
    resp. two steps plus the centisecond rounding. *)
Theorem C19_quantisation_succeeds : forall n sps amount,
  (0 <= n_start n)%Q -> (n_start n < n_end n)%Q -> 0 < sps -> (0 < amount)%Q -> (amount <= 1)%Q ->
  let fs := Qfloor (n_start n * inject_Z sps + (1 - amount)) in
  let ce := Qceiling (n_end n * inject_Z sps + (1 - amount)) in
  exists n', n_quantize_in_place n sps amount None = (Ok tt, n') /\
    (n_qs n' == inject_Z fs)%Q /\
    (if n_is_quantized n then n_qe n' == inject_Z fs + inject_Z (ce - fs) / inject_Z sps
     else n_qe n' == inject_Z ce)%Q /\
    (Qabsb (n_start n' - n_start n) <= 1 / inject_Z sps + (1 # 200))%Q /\
    (Qabsb (n_end n' - n_end n) <= 2 * (1 / inject_Z sps) + (1 # 200))%Q /\
    same_identity n' n.
Proof. exact quantize_success. Qed.
Print Assumptions C19_quantisation_succeeds.
Example C19_case : exists n', n_quantize_in_place (mk0 60 (13#10) (19#10)) 4 (1#2) None = (Ok tt, n') /\
  (n_qs n' == 5)%Q /\ (n_qe n' == 9)%Q /\ (n_start n' == 125#100)%Q /\ (n_end n' == 225#100)%Q.
Proof. eexists; split; [vm_compute; reflexivity|]. repeat split; reflexivity. Qed.
(** C19: quantising twice is not the same as once. *)
Example C19_requantise_differs : exists n1 n2,
  n_quantize_in_place (mk0 60 (13#10) (19#10)) 4 (1#2) None = (Ok tt, n1) /\
  n_quantize_in_place n1 4 (1#2) None = (Ok tt, n2) /\ ~ (n_qe n2 == n_qe n1)%Q.
Proof. do 2 eexists; split; [vm_compute; reflexivity|]. split; [vm_compute; reflexivity|]. discriminate. Qed.

(** C19: with a min_step m, a note not yet quantised gets its steps lowered by m; a start step below
    m raises ValueError and leaves the note alone. *)
Theorem C19_min_step : forall n sps amount,
  (0 <= n_start n)%Q -> (n_start n < n_end n)%Q -> 0 < sps -> (0 < amount)%Q -> (amount <= 1)%Q ->
  let fs := Qfloor (n_start n * inject_Z sps + (1 - amount)) in
  let ce := Qceiling (n_end n * inject_Z sps + (1 - amount)) in
  forall m, (n_qs n < 0)%Q -> (n_qe n < 0)%Q ->
  (fs < m -> n_quantize_in_place n sps amount (Some m) = (Err ValueError, n)) /\
  (m <= fs -> exists n', n_quantize_in_place n sps amount (Some m) = (Ok tt, n') /\
     (n_qs n' == inject_Z (fs - m))%Q /\ (n_qe n' == inject_Z (ce - m))%Q /\ same_identity n' n).
Proof. exact quantize_min_step. Qed.
Print Assumptions C19_min_step.
Example C19_min_step_case :
  (exists n', n_quantize_in_place (mk0 60 (13#10) (19#10)) 4 (1#2) (Some 3) = (Ok tt, n') /\ (n_qs n' == 2)%Q /\ (n_qe n' == 6)%Q) /\
  fst (n_quantize_in_place (mk0 60 (13#10) (19#10)) 4 (1#2) (Some 6)) = Err ValueError.
Proof. split; [eexists; split; [vm_compute; reflexivity|]; split; reflexivity|vm_compute; reflexivity]. Qed.

(** C20: copying a note, after any history. *)
Theorem C20_copy : forall a n ops, n_new a = Ok n ->
  (n_den a <= 128 -> (n_start (n_run n ops) < n_end (n_run n ops))%Q -> n_make_copy (n_run n ops) = Ok (n_run n ops)) /\
  (n_den a > 128 \/ (n_end (n_run n ops) <= n_start (n_run n ops))%Q -> n_make_copy (n_run n ops) = Err AssertionError).
Proof. exact copy_reachable. Qed.
Print Assumptions C20_copy.
Example C20_case :
  (exists n, n_new (mkN 60 100 0 0 0 4 256 false 0 1 (-1) (-1)) = Ok n /\ n_make_copy n = Err AssertionError) /\
  n_make_copy (n_run (mk0 60 0 1) [NSetPitch 61; NShift 3]) = Ok (n_run (mk0 60 0 1) [NSetPitch 61; NShift 3]).
Proof. split; [eexists; split; reflexivity|reflexivity]. Qed.

(** C21: shifting. *)
Theorem C21_shift : forall n d,
  let m := n_shift (n_shift n d) (- d) in
  (n_start m == n_start n)%Q /\ (n_end m == n_end n)%Q /\ same_identity m n /\ n_qs m = n_qs n /\ n_qe m = n_qe n /\
  (n_start (n_shift n d) == n_start n + d)%Q /\ (n_duration (n_shift n d) == n_duration n)%Q.
Proof. exact shift_facts. Qed.
Print Assumptions C21_shift.
(** C21: stretching a valid note by k gives a valid note exactly when k > 0. *)
Theorem C21_stretch : forall n k, (n_start n < n_end n)%Q ->
  (n_duration (n_stretch n k) == k * n_duration n)%Q /\
  ((n_start (n_stretch n k) < n_end (n_stretch n k))%Q <-> (0 < k)%Q) /\
  same_identity (n_stretch n k) n /\ n_qs (n_stretch n k) = n_qs n /\ n_qe (n_stretch n k) = n_qe n.
Proof. exact stretch_facts. Qed.
Print Assumptions C21_stretch.
Example C21_case : (n_duration (n_stretch (mk0 60 1 3) (1#2)) == 1)%Q.
Proof. reflexivity. Qed.
