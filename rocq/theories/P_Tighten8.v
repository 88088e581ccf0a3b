(** Further theorems for earlier properties, added because of mutants that survived. *)
From Coq Require Import Sorted Permutation Lia Lqa Qabs.
From Verif Require Import PyBase M_Float M_Beats M_BeatsF S_Beats S_Snap S_BeatsF L_BeatsF12.
Open Scope Q_scope.

(** C215: a last signature that no beat comes near (one at the very end of the piece) does not start
    a span of its own: it takes over the bars of the span before it. *)
Theorem C215_rebarred : forall m s1 s2 others start l l1 l2 n, m <> [] -> meters [s1; s2] -> start < ts_time s1 -> ts_time s1 <= ts_time s2 -> beats_f_are m [s1; s2] others start l ->
  StronglySorted Qle l -> l = l1 ++ ts_time s1 :: l2 ->
  (forall x, In x l1 -> (2 # 100000000) + (2 # 100000) * Qabs (ts_time s1) < Qabs (x - ts_time s1)) ->
  (forall x, In x l -> (2 # 100000000) + (2 # 100000) * Qabs (ts_time s2) < Qabs (x - ts_time s2)) -> beats_per_bar (ts_num s2) n ->
  exists d1 d2, downbeats_f_are m [s1; s2] others start (d1 ++ d2) /\
    (forall j, nth_error d1 j = nth_error l1 (j * 4)) /\ (forall j, nth_error d2 j = nth_error (ts_time s1 :: l2) (j * n)).
Proof. exact rebarred. Qed.
Print Assumptions C215_rebarred.
(** 60 quarters a minute; 3/4 from second 5, 2/4 at the end, second 11: bars of two from second 5. *)
Example C215_rebarred_case : exists l, get_beats_f 20 [(0, 60)] [mkTS 3 4 5; mkTS 2 4 11] [11] 0 = Ok (Some l) /\ l = [0; 1; 2; 3; 4] ++ 5 :: [6; 7; 8; 9; 10] /\
  get_downbeats_f 20 [(0, 60)] [mkTS 3 4 5; mkTS 2 4 11] [11] 0 = Ok (Some [0; 4; 5; 7; 9]) /\
  (forall x, In x l -> (2 # 100000000) + (2 # 100000) * Qabs 11 < Qabs (x - 11)) /\
  (forall x, In x [0; 1; 2; 3; 4] -> (2 # 100000000) + (2 # 100000) * Qabs 5 < Qabs (x - 5)) /\ meters [mkTS 3 4 5; mkTS 2 4 11].
Proof.
  eexists. split; [vm_compute; reflexivity|]. split; [reflexivity|]. split; [vm_compute; reflexivity|]. split; [|split].
  - intros x H. repeat (destruct H as [<- |H]; [reflexivity|]). destruct H.
  - intros x H. repeat (destruct H as [<- |H]; [reflexivity|]). destruct H.
  - intros s [<- |[<- |[]]]; cbn; lia.
Qed.
