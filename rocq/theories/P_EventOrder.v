(** Properties C138-C142: comparisons of MIDI events and the remaining tempo conversion. *)
From Verif Require Import PyBase M_Events M_EventOrder S_EventOrder L_EventOrder.
From Coq Require Import Permutation Sorted.
Open Scope Z_scope.

(** C138: control changes, key, tempo and time signatures compare by time, and by sequence number
    when the times are the same up to a billionth. *)
Theorem C138_order : forall (a b : cc) (k l : keysig) (t u : tempo) (s v : tsig),
  (cc_ltb a b = true <-> precedes (cc_time a) (cc_seq a) (cc_time b) (cc_seq b)) /\
  (k_ltb k l = true <-> precedes (k_time k) (k_seq k) (k_time l) (k_seq l)) /\
  (t_ltb t u = true <-> precedes (t_time t) (t_seq t) (t_time u) (t_seq u)) /\
  (s_ltb s v = true <-> precedes (s_time s) (s_seq s) (s_time v) (s_seq v)).
Proof. exact orders. Qed.
Print Assumptions C138_order.

(** C138: on control changes made and changed through the interface < is a strict order, and it is
    the order of the times that are not the same. *)
Theorem C138_strict_order : forall a b c : cc,
  (exists n v t p i d s qs qe ops, a = cc_run (cc_new n v t p i d s qs qe) ops) ->
  (exists n v t p i d s qs qe ops, b = cc_run (cc_new n v t p i d s qs qe) ops) ->
  (exists n v t p i d s qs qe ops, c = cc_run (cc_new n v t p i d s qs qe) ops) ->
  cc_ltb a a = false /\ (cc_ltb a b = true -> cc_ltb b a = false) /\
  (cc_ltb a b = true -> cc_ltb b c = true -> cc_ltb a c = true) /\
  (cc_ltb a b = true <-> ~ near (cc_time a) (cc_time b) /\ (cc_time a < cc_time b)%Q).
Proof. exact cc_order. Qed.
Print Assumptions C138_strict_order.

(** C138: it is not the order of the times: "neither is less" is not transitive, so sorting control
    changes whose times are that close need not order them. *)
Theorem C138_not_weak : exists a b c : cc,
  cc_ltb a b = false /\ cc_ltb b a = false /\ cc_ltb b c = false /\ cc_ltb c b = false /\ cc_ltb a c = true.
Proof.
  exists (cc_new 1 1 1 0 0 false 4 0 0), (cc_new 1 1 (10000000009 # 10000000000) 0 0 false 4 0 0), (cc_new 1 1 (10000000018 # 10000000000) 0 0 false 4 0 0).
  repeat split; vm_compute; reflexivity.
Qed.
Print Assumptions C138_not_weak.
Example C138_case : let a := cc_run (cc_new 7 64 3 0 0 false 4 0 0) [CShift (-2)] in let b := cc_new 7 64 2 0 0 false 4 0 0 in
  cc_ltb a b = true /\ cc_ltb b a = false /\ near 2 2 /\ precedes 1 0 2 0.
Proof.
  split; [reflexivity|]. split; [reflexivity|]. split; [discriminate|]. right. split; [|reflexivity].
  unfold near. vm_compute. intros H. apply H. reflexivity.
Qed.

(** C139: shifting a control change moves its time and nothing else, so shifting back gives an equal one. *)
Theorem C139_shift : forall c d,
  cc_time (cc_shift c d) = (cc_time c + d)%Q /\ cc_number (cc_shift c d) = cc_number c /\ cc_value (cc_shift c d) = cc_value c /\
  cc_program (cc_shift c d) = cc_program c /\ cc_instrument (cc_shift c d) = cc_instrument c /\ cc_drum (cc_shift c d) = cc_drum c /\
  cc_step (cc_shift c d) = cc_step c /\ cc_qs (cc_shift c d) = cc_qs c /\ cc_qe (cc_shift c d) = cc_qe c /\
  cc_quantized (cc_shift c d) = cc_quantized c /\ cc_seq (cc_shift c d) = cc_seq c.
Proof. exact shift_only. Qed.
Print Assumptions C139_shift.
Theorem C139_shift_back : forall c d, cc_eqb (cc_shift (cc_shift c d) (- d)) c = true.
Proof. exact shift_back. Qed.
Print Assumptions C139_shift_back.
(** C139: == and != of the base class disagree exactly on equal numbers with different descriptions:
    such a pair is neither equal nor unequal; no pair is both. *)
Theorem C139_base_eq_ne : forall a b,
  (bc_eqb a b = true <-> bc_number a = bc_number b /\ bc_description a = bc_description b) /\
  (bc_neb a b = true <-> bc_number a <> bc_number b) /\
  (bc_eqb a b = true -> bc_neb a b = false) /\
  (bc_eqb a b = false /\ bc_neb a b = false <-> bc_number a = bc_number b /\ bc_description a <> bc_description b).
Proof. exact base_cc. Qed.
Print Assumptions C139_base_eq_ne.
(** C139: the base class orders by number; a description "Undefined" gets the number appended and any
    other is kept, like the other arguments. *)
Theorem C139_base : forall str a b number d lo hi onoff,
  (bc_ltb a b = true <-> bc_number a < bc_number b) /\
  let c := bc_new str number d lo hi onoff in
  bc_number c = number /\ bc_min c = lo /\ bc_max c = hi /\ bc_onoff c = onoff /\
  (d = "Undefined"%string -> bc_description c = String.append "Undefined "%string (str number)) /\
  (d <> "Undefined"%string -> bc_description c = d).
Proof.
  intros. split; [apply Z.ltb_lt|]. cbv zeta. unfold bc_new; cbn [bc_number bc_min bc_max bc_onoff bc_description].
  repeat split; intros H; [subst d; reflexivity|].
  destruct (String.eqb d "Undefined"%string) eqn:E; [apply String.eqb_eq in E; contradiction|reflexivity].
Qed.
Print Assumptions C139_base.
(** C139: control changes are equal exactly when number, value, time, program, instrument, drum flag and
    the three quantization steps are; != is the negation. *)
Theorem C139_cc_eq : forall a b,
  (cc_eqb a b = true <-> cc_number a = cc_number b /\ cc_value a = cc_value b /\ (cc_time a == cc_time b)%Q /\ cc_program a = cc_program b /\
    cc_instrument a = cc_instrument b /\ cc_drum a = cc_drum b /\ cc_step a = cc_step b /\ cc_qs a = cc_qs b /\ cc_qe a = cc_qe b) /\
  (cc_neb a b = true <-> cc_eqb a b = false).
Proof.
  intros a b. split; [|unfold cc_neb; destruct (cc_eqb a b); simpl; intuition congruence].
  unfold cc_eqb. rewrite !andb_true_iff, !Z.eqb_eq, Qeq_bool_iff, Bool.eqb_true_iff. tauto.
Qed.
Print Assumptions C139_cc_eq.
Example C139_case : let a := bc_new (fun _ => "7"%string) 7 "Undefined" 0 127 false in let b := bc_new (fun _ => "7"%string) 7 "Volume" 0 127 false in
  bc_description a = "Undefined 7"%string /\ bc_eqb a b = false /\ bc_neb a b = false.
Proof. repeat split. Qed.

(** C140: pitch bends are equal exactly when all five fields are (None only equals None). *)
Theorem C140_bend_eq : forall a b, b_eqb a b = true <->
  b_amount a = b_amount b /\ b_program a = b_program b /\ b_instrument a = b_instrument b /\ b_drum a = b_drum b /\
  (b_time a = None <-> b_time b = None) /\ (forall x y, b_time a = Some x -> b_time b = Some y -> (x == y)%Q).
Proof. exact bend_eq. Qed.
Print Assumptions C140_bend_eq.
(** C140: sorting pitch bends orders them by amount, whatever their times; bends of the same amount
    keep the order they had. *)
Theorem C140_bend_sort : forall l,
  let s := py_sort b_ltb l in
  Permutation l s /\ StronglySorted (fun a b => b_amount a <= b_amount b) s /\
  (forall k, filter (fun y => b_amount y =? k) s = filter (fun y => b_amount y =? k) l).
Proof. exact bend_sort. Qed.
Print Assumptions C140_bend_sort.
Example C140_case : exists a b, b_new 100 0 0 (Some 1%Q) false = Ok a /\ b_new (-50) 0 0 (Some 2%Q) false = Ok b /\
  py_sort b_ltb [a; b] = [b; a] /\ b_eqb a b = false /\ b_eqb a a = true.
Proof. do 2 eexists. repeat split. Qed.

(** C141: a key signature accepts mode 0 (major) and 1 (minor) only, and keeps the time and any key. *)
Theorem C141_key_signature : forall time key m,
  (forall k, k_new time key m = Ok k <-> (m = 0 \/ m = 1) /\ k = mkK time key (if m =? 0 then MajorMode else MinorMode) 0) /\
  ((m <> 0 /\ m <> 1) <-> k_new time key m = Err ValueError).
Proof. exact keysig_new. Qed.
Print Assumptions C141_key_signature.
Example C141_case : k_new 3 (-900) 1 = Ok (mkK 3 (-900) MinorMode 0) /\ k_new 3 0 2 = Err ValueError.
Proof. split; reflexivity. Qed.

(** C142: ppq_to_qpm ignores the tempo and the ticks per beat: it returns 60 / ppq. *)
Theorem C142_ppq_to_qpm : forall ppq us ticks, ~ (ppq == 0)%Q -> ~ (us == 0)%Q -> ~ (ticks == 0)%Q ->
  exists q, ppq_to_qpm ppq us ticks = Ok q /\ (q == 60 / ppq)%Q.
Proof. exact ppq_value. Qed.
Print Assumptions C142_ppq_to_qpm.
Example C142_case : exists q r, ppq_to_qpm 480 500000 4 = Ok q /\ ppq_to_qpm 480 250000 4 = Ok r /\ (q == 1 # 8)%Q /\ (r == 1 # 8)%Q.
Proof. do 2 eexists. repeat split; vm_compute; reflexivity. Qed.
