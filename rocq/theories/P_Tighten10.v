(** Addition to C120: what the eight names outside music theory stand for. *)
From Coq Require Import Lia Ascii.
From Verif Require Import PyBase M_Chord M_Experiments M_Scales S_Scales.
Open Scope Z_scope.

(** C120: by name, the value of the member and the size the name has in music theory, if it has one: the
    diminished seventh is one semitone too wide, the diminished twelfth seven too narrow, the augmented
    thirteenth two and both fourteenths one; no interval is called a major or minor eleventh or a perfect
    thirteenth, yet they stand for 17, 15 and 19 semitones. *)
Theorem C120_exceptions : forall q k, In (String q (py_str k)) ["d7"; "d12"; "M11"; "m11"; "P13"; "A13"; "m14"; "M14"]%string -> 1 <= k <= 14 ->
  exists v, interval_by_name (String q (py_str k)) = Ok v /\
    In (String q (py_str k), v, interval_size q k)
      [("d7", 10, Some 9); ("d12", 11, Some 18); ("M11", 17, None); ("m11", 15, None); ("P13", 19, None); ("A13", 20, Some 22);
       ("m14", 21, Some 22); ("M14", 22, Some 23)]%string.
Proof.
  intros q k H K. assert (C : k = 1 \/ k = 2 \/ k = 3 \/ k = 4 \/ k = 5 \/ k = 6 \/ k = 7 \/ k = 8 \/ k = 9 \/ k = 10 \/ k = 11 \/ k = 12 \/ k = 13 \/ k = 14) by lia.
  repeat match type of C with _ \/ _ => destruct C as [C|C] end; subst k; vm_compute in H;
    repeat match type of H with _ \/ _ => destruct H as [H|H] end; try contradiction; try discriminate;
    injection H as <-; eexists; (split; [reflexivity|vm_compute; tauto]).
Qed.
Print Assumptions C120_exceptions.
Example C120_exceptions_case : In (String "m"%char (py_str 11)) ["d7"; "d12"; "M11"; "m11"; "P13"; "A13"; "m14"; "M14"]%string /\ interval_by_name "m11" = Ok 15.
Proof. split; [vm_compute; tauto|reflexivity]. Qed.
