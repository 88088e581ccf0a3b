(** Further theorems about C52 (checks of the arguments of a dataset) and C175 (traversal of a graph). *)
From Coq Require Import Lia Lqa.
From Verif Require Import PyBase L_Base M_Dataset P_Dataset M_Traverse S_Traverse L_Traverse.
Open Scope Z_scope.

(** C52: arguments that are out of range are refused with a ValueError. *)
Theorem C52_errors : forall t v size b,
  ~ ((0 <= t)%Q /\ (0 <= v)%Q /\ (t + v <= 1)%Q /\ (forall k, size = Some k -> 1 <= k <= 128) /\ (forall k, b = Some k -> 1 <= k)) ->
  check_args t v size b = Err ValueError.
Proof.
  intros t v size b N. assert (E : check_args t v size b <> Ok tt) by (intro E; apply N, C52_arguments; exact E). revert E. unfold check_args.
  repeat match goal with |- context [if ?c then _ else _] => destruct c; [reflexivity|] end. intro E; destruct E; reflexivity.
Qed.
Print Assumptions C52_errors.
Example C52_errors_case : check_args (1 # 2) (1 # 4) (Some 129) None = Err ValueError /\ check_args (1 # 2) (1 # 4) None (Some 0) = Err ValueError /\
  check_args (-1 # 2) (1 # 4) None None = Err ValueError.
Proof. repeat split. Qed.

Lemma push_err : forall edges attr visited dist node ns pq x, push_all edges attr visited dist node ns pq = Err x -> x = IndexError.
Proof.
  induction ns as [|v r IH]; cbn [push_all]; intros pq x H; [discriminate|]. destruct (existsb _ _); [eauto|]. destruct (first_edge _ _ _); [|eauto].
  destruct (nth_error attr n); [eauto|]. inversion H. reflexivity.
Qed.
Lemma loop_err : forall fuel edges attr pq nodes out x, traverse_loop fuel edges attr pq nodes out = Some (Err x) -> x = IndexError.
Proof.
  induction fuel as [|f IH]; intros edges attr pq nodes out x H; destruct pq as [|p r]; cbn [traverse_loop] in H; try discriminate.
  destruct (pop_least p r) as [m q]. destruct (existsb _ _); [eauto|]. destruct (push_all _ _ _ _ _ _ _) as [q'|y] eqn:E; [eauto|].
  apply push_err in E. inversion H. congruence.
Qed.
Lemma push_short : forall edges attr visited dist node ns pq v i, In v ns -> ~ In v visited -> first_edge edges node v = Some i -> nth_error attr i = None ->
  push_all edges attr visited dist node ns pq = Err IndexError.
Proof.
  induction ns as [|u r IH]; intros pq v i I NV F N; [destruct I|]. cbn [push_all].
  destruct (existsb (Z.eqb u) visited) eqn:E.
  - destruct I as [-> | I]; [exfalso; apply NV, existsb_in, E|eauto].
  - destruct I as [-> | I]; [rewrite F, N; reflexivity|]. destruct (first_edge edges node u) as [k|]; [|eauto]. destruct (nth_error attr k); [eauto|reflexivity].
Qed.
(** C175: whatever the graph and the weights, the only exception is an IndexError, ... *)
Theorem C175_errors : forall fuel edges attr s x, traverse fuel edges attr s = Some (Err x) -> x = IndexError.
Proof. intros fuel edges attr s x. apply loop_err. Qed.
Print Assumptions C175_errors.
(** C175: ... which is raised when an edge from the start to another node has no weight. *)
Theorem C175_short : forall fuel edges attr s v, (0 < fuel)%nat -> In (s, v) edges -> v <> s -> (forall w, ~ weight edges attr s v w) ->
  traverse fuel edges attr s = Some (Err IndexError).
Proof.
  intros fuel edges attr s v F I D W. destruct fuel as [|f]; [lia|]. unfold traverse. cbn [traverse_loop pop_least existsb fst snd app].
  destruct (first_edge_some edges s v I) as (i & E & _). rewrite (push_short edges attr [s] 0 s (neighbors edges s) [] v i); auto.
  - apply neighbors_in; auto.
  - intros [H | []]. congruence.
  - destruct (nth_error attr i) as [w|] eqn:N; auto. exfalso. apply (W w). exists i. destruct (first_edge_spec _ _ _ _ E). auto.
Qed.
Print Assumptions C175_short.
Example C175_short_case : traverse 5 [(0, 1); (0, 2); (1, 3)] [1]%Q 0 = Some (Err IndexError) /\ In (0, 2) [(0, 1); (0, 2); (1, 3)] /\
  (forall w, ~ weight [(0, 1); (0, 2); (1, 3)] [1]%Q 0 2 w).
Proof.
  split; [reflexivity|]. split; [cbn; auto|]. intros w (i & A & B & _). destruct i as [|[|[|i]]]; cbn in *; try discriminate.
Qed.
