(** Property C180: relative velocity scaling in double precision. [scale_relative fl] is
    scale_relative_velocities with every operation rounded to 53 bits. *)
From Coq Require Import Lia Lqa Qround.
From Verif Require Import PyBase L_Base M_Float M_SeqMore L_Velocity.
Open Scope Z_scope.

(** C180: in double precision, for velocities that are not negative and not all 0, every scaled velocity is the
    exact one (velocity times factor, cut at 127, rounded down) or differs from it by one ... *)
Theorem C180_near : forall l f, (0 <= f)%Q -> (forall v, In v l -> 0 <= v) -> (exists v, In v l /\ v <> 0) ->
  exists w, scale_relative fl l f = Some w /\ Forall2 (fun v y => let exact := Qfloor (Qminb 127 (inject_Z v * f)) in exact - 1 <= y <= exact + 1) l w.
Proof.
  intros l f F N X. destruct (scale_fl l f F N X) as (w & E & G). exists w. split; auto. clear - G. induction G as [|v y l w (x & -> & B) G IH]; constructor; auto. apply floor_near. auto.
Qed.
Print Assumptions C180_near.
(** C180: ... and with factor 1 it is the velocity itself or one less. *)
Theorem C180_identity : forall l, (forall v, In v l -> 0 <= v <= 127) -> (exists v, In v l /\ v <> 0) ->
  exists w, scale_relative fl l 1 = Some w /\ Forall2 (fun v y => y = v \/ y = v - 1) l w.
Proof.
  intros l N X. destruct (scale_fl l 1) as (w & E & G); [lra|intros; apply N; auto|auto|]. exists w. split; auto. clear - G N. induction G as [|v y l w (x & -> & B) G IH]; constructor; [|apply IH; intros; apply N; right; auto].
  apply floor_near_Z. destruct (N v (or_introl eq_refl)) as [V0 V]. rewrite Zle_Qle in V. change (inject_Z 127) with 127%Q in V.
  destruct (Qminb_spec 127 (inject_Z v * 1)) as [[M K]|[M K]]; rewrite K in B; lra.
Qed.
Print Assumptions C180_identity.
(** C180: the loss does happen: 87 and 65, scaled by 1, become 86 and 65. *)
Theorem C180_loss : scale_relative fl [87; 65] 1 = Some [86; 65].
Proof. vm_compute. reflexivity. Qed.
Example C180_case : scale_relative fl [100; 126; 25] (3 # 2) = Some [127; 127; 37].
Proof. vm_compute. reflexivity. Qed.
