(** Property C205, the argument min_step of quantize_in_place in double precision. *)
From Coq Require Import QArith Lqa Lia ZArith Qround.
From Verif Require Import PyBase M_Note M_Events M_Float M_NoteF L_Base L_Note L_Note2 L_Snap L_NoteF L_NoteF2.
Open Scope Z_scope.

(** C205: with a first step m, the steps counted are those from m on, but no lower than the steps the note had;
    a note not quantised before gets these steps, one quantised before a length divided by the rate; the start
    becomes the time of its step unless that is past the end. *)
Theorem C205_min_step : forall n sps amount m n', (0 <= n_start n)%Q -> (0 <= n_end n)%Q ->
  n_quantize_in_place_f n sps amount (Some m) = (Ok tt, n') ->
  exists first last s e, quantize_step_f (n_start n) sps amount true = Ok first /\ quantize_step_f (n_end n) sps amount false = Ok last /\
    (s == Qmaxb (n_qs n) (inject_Z (first - m)))%Q /\
    (e == Qmaxb (n_qe n) (inject_Z (if (sps =? 1) && (first =? last) then last + 1 - m else last - m)))%Q /\
    (if n_is_quantized n then n_qs n' == Qmaxb 0 s /\ n_qe n' == fl (Qmaxb 0 s + fl (fl (e - s) / inject_Z sps))
     else n_qs n' == fl s /\ n_qe n' == fl e)%Q /\
    (n_start n' == Qmaxb 0 (Qminb (seconds_f s sps) (fl (n_end n - milli))))%Q.
Proof.
  intros n sps amount m n' Hs He H. unfold n_quantize_in_place_f in H.
  destruct (quantize_step_f (n_start n) sps amount true) as [s0|] eqn:E1; [|discriminate].
  destruct (quantize_step_f (n_end n) sps amount false) as [e0|] eqn:E2; [|discriminate].
  assert (M0 : forall t, (0 <= t)%Q -> inject_Z (Qfloor (fl (Qmaxb 0 (- t) * inject_Z sps))) = 0%Q).
  { intros t Ht. assert (Z0 : (Qmaxb 0 (- t) * inject_Z sps == 0)%Q).
    { unfold Qmaxb. qcase (Qle_bool 0 (- t)); [assert (T : (- t == 0)%Q) by lra; rewrite T; ring|ring]. }
    assert (F : (fl (Qmaxb 0 (- t) * inject_Z sps) == 0)%Q) by (apply (fl_int 0); [lia|exact Z0]).
    rewrite F. reflexivity. }
  cbv zeta in H.
  remember (Qmaxb (n_qs n) (inject_Z (s0 - m))) as s eqn:S2.
  assert (EE : (if (sps =? 1) && (s0 =? e0) then e0 + 1 else e0) - m = (if (sps =? 1) && (s0 =? e0) then e0 + 1 - m else e0 - m)) by (destruct ((sps =? 1) && (s0 =? e0)); reflexivity).
  rewrite EE in H.
  remember (Qmaxb (n_qe n) (inject_Z (if (sps =? 1) && (s0 =? e0) then e0 + 1 - m else e0 - m))) as e eqn:S3.
  exists s0, e0, s, e. split; [reflexivity|]. split; [reflexivity|]. split; [rewrite S2; reflexivity|]. split; [rewrite S3; reflexivity|].
  clear S2 S3 EE E1 E2. apply run_ok in H as [n2 [H1 H]].
  rewrite (M0 (n_start n) Hs), (M0 (n_end n) He) in H1.
  assert (R : n_end n2 = n_end n /\ (if n_is_quantized n then n_qs n2 == Qmaxb 0 s /\ n_qe n2 == fl (Qmaxb 0 s + fl (fl (e - s) / inject_Z sps))
     else n_qs n2 == fl s /\ n_qe n2 == fl e)%Q).
  { destruct (n_is_quantized n); apply run_ok in H1 as [n1 [A B]]; unfold n_set_qs in A; unfold n_set_qe in B;
      match type of A with (if ?b then _ else _) = _ => destruct b; [discriminate|] end;
      match type of B with (if ?b then _ else _) = _ => destruct b; [discriminate|] end;
      injection A as A; injection B as B; subst n1; subst n2; cbn [with_qs with_qe n_end n_qs n_qe]; (split; [reflexivity|]).
    - split; reflexivity.
    - split; (rewrite (fl_m _ _ (Qplus_0_r _)); reflexivity). }
  destruct R as [R1 R2]. clear H1.
  qcase (Qltb (n_qs n2) 0); [discriminate|]. qcase (Qltb (n_qe n2) 0); [discriminate|].
  qcase (Qle_bool (n_qe n2) (n_qs n2)); [discriminate|]. rewrite R1 in H.
  match type of H with (if Qltb ?a ?b then _ else _) = _ => destruct (Qltb a b) end; apply run_ok in H as [n3 [H3 H4]].
  - apply set_start_ok in H3 as [-> [? ?]]. apply set_end_ok in H4 as [-> [? ?]].
    cbn [with_start with_end n_qs n_qe n_start n_end] in *. split; [exact R2|reflexivity].
  - apply set_end_ok in H3 as [-> [? ?]]. apply set_start_ok in H4 as [-> [? ?]].
    cbn [with_start with_end n_qs n_qe n_start n_end] in *. split; [exact R2|reflexivity].
Qed.
Print Assumptions C205_min_step.
(** Four steps per second, 1.3 to 1.9 seconds, counting from step 2: steps 3 and 7. *)
Example C205_case_min_step : exists n', n_quantize_in_place_f (mk0 60 (fl (13#10)) (fl (19#10))) 4 (1#2) (Some 2) = (Ok tt, n') /\
  (n_qs n' == 3)%Q /\ (n_qe n' == 7)%Q.
Proof. eexists; split; [vm_compute; reflexivity|]. split; reflexivity. Qed.
