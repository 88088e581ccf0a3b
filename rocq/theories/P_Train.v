(** Properties C177-C179: constructing the trainers, and evaluating a trained network.
    [construct c epochs batch midi] is the call of the class with its documented arguments epochs, batch_size
    and midi_dataset; a [batch] of graphs lists its nodes with label, predicted class and mask rows. *)
From Coq Require Import Lia Lqa.
From Verif Require Import PyBase L_Base M_Train S_Train L_Train.
Open Scope Z_scope.

(** C177: the trainers of the node classification, GIN, generation and auto-encoder examples pass their
    arguments in the wrong order: with a number of epochs (or None) they raise ValueError, whatever the batch
    size and the dataset; three of them fail for all arguments, the other two only accept the dataset where the
    number of epochs belongs. The minimal example accepts exactly a dataset and positive numbers. *)
Theorem C177_constructors :
  (forall c n batch midi, construct c (AInt n) batch midi = Err ValueError) /\
  (forall c batch midi, construct c ANone batch midi = Err ValueError) /\
  (forall c epochs batch midi, construct c epochs batch midi = Ok tt <->
     (c = Example2 \/ c = GinExample) /\ epochs = AData /\ (exists n, batch = AInt n /\ 0 < n) /\ (exists n, midi = AInt n /\ 0 < n)) /\
  (forall midi epochs batch, construct_ngc midi epochs batch = Ok tt <->
     midi = AData /\ (exists n, epochs = AInt n /\ 0 < n) /\ (exists n, batch = AInt n /\ 0 < n)).
Proof.
  assert (POS : forall a, positive_int a = true <-> exists n, a = AInt n /\ 0 < n).
  { intros []; cbn; try (split; [discriminate|intros (k & H & _); discriminate]). rewrite Z.ltb_lt. split; [eauto|intros (k & H & L); injection H as ->; auto]. }
  assert (INIT : forall m e b, experiments_init m e b = Ok tt <-> m = AData /\ positive_int e = true /\ positive_int b = true).
  { intros m e b. unfold experiments_init. split.
    - destruct (is_none e), (is_none b), (is_none m), (indexable m), (positive_int b), (positive_int e); cbn [negb]; try discriminate. destruct m; cbn; try discriminate. auto.
    - intros (-> & E & B). rewrite E, B. destruct e, b; try discriminate; reflexivity. }
  split; [|split; [|split]].
  - intros c n b m. destruct b, m, c; reflexivity.
  - intros c b m. destruct b, m, c; reflexivity.
  - intros c e b m. split.
    + unfold construct. destruct (experiments_init e b m) as [[]|] eqn:X; cbn [bind]; [|discriminate]. apply INIT in X as (-> & B & M). rewrite POS in B, M. destruct M as (k & -> & K). destruct c; cbn; try discriminate; eauto 10.
    + intros (C & -> & B & M). unfold construct. rewrite <- POS in B, M. destruct (INIT AData b m) as [_ I]. rewrite I; auto. destruct C as [-> | ->]; reflexivity.
  - intros m e b. unfold construct_ngc. rewrite INIT, !POS. tauto.
Qed.
Print Assumptions C177_constructors.

(** C178: the evaluation of a batch raises ZeroDivisionError exactly if one of the masks selects no node;
    otherwise it gives, for the training, validation and test nodes, the share predicted right, averaged over
    the splits; micro-averaged F1, precision and recall are this same number. *)
Theorem C178_test : forall b, (has_empty_mask b -> test b = Err ZeroDivisionError) /\
  (~ has_empty_mask b -> (0 < b_splits b)%nat -> exists acc f1 precision recall, test b = Ok [acc; f1; precision; recall] /\
     Forall (fun l => Forall2 Qeq l [batch_share Training b; batch_share Validation b; batch_share Testing b]) [acc; f1; precision; recall]) /\
  (b_splits b = 0%nat -> test b = Ok [[]; []; []; []]).
Proof.
  intros b. split; [apply test_err|]. split; [|apply test_none]. intros N S0. destruct (test_ok b N S0) as (r & E & L & R3 & V).
  destruct r as [|r0 [|r1 [|r2 [|r3 [|? ?]]]]]; try discriminate. exists r0, r1, r2, r3. split; auto.
  assert (G : forall s, (s < 4)%nat -> Forall2 Qeq (nth s [r0; r1; r2; r3] []) [batch_share Training b; batch_share Validation b; batch_share Testing b]).
  { intros s S4. pose proof (R3 s S4) as K. pose proof (V s Training S4) as V0. pose proof (V s Validation S4) as V1. pose proof (V s Testing S4) as V2. cbn [part_no] in V0, V1, V2.
    destruct (nth s [r0; r1; r2; r3] []) as [|x [|y [|z [|? ?]]]]; try discriminate. cbn [nth] in V0, V1, V2. repeat (constructor; auto). }
  constructor; [apply (G 0%nat); lia|]. constructor; [apply (G 1%nat); lia|]. constructor; [apply (G 2%nat); lia|]. constructor; [apply (G 3%nat); lia|constructor].
Qed.
Print Assumptions C178_test.

(** C179: if no mask of a test batch is empty, training gives four numbers, of which the first and third
    (final_test_acc, best_test_f1) are both the greatest mean share over the epochs for the validation nodes,
    and the second and fourth (best_val_acc, best_val_f1) the greatest one for the test nodes; 0 without
    epochs or test batches. If a mask is empty or there is no split, training raises. *)
Theorem C179_trainer : forall epochs, Forall (Forall (fun b => (0 < b_splits b)%nat /\ ~ has_empty_mask b)) epochs ->
  exists final_test_acc best_val_acc best_test_f1 best_val_f1, trainer epochs = Ok (final_test_acc, best_val_acc, best_test_f1, best_val_f1) /\
    greatest final_test_acc (map (epoch_share Validation) (filter (fun e => negb (Nat.eqb (List.length e) 0)) epochs)) /\
    greatest best_val_acc (map (epoch_share Testing) (filter (fun e => negb (Nat.eqb (List.length e) 0)) epochs)) /\
    (best_test_f1 == final_test_acc)%Q /\ (best_val_f1 == best_val_acc)%Q.
Proof.
  intros es G. assert (Z0 : forall p, greatest 0 (worths p [])) by (intros p; split; [left; reflexivity|split; [lra|constructor]]).
  destruct (loop_ok es G [] 0 0 0 0 (Z0 _) (Z0 _) (Z0 _) (Z0 _)) as (a & b & c & d & E & A & B & C & D). exists a, b, c, d. split; [exact E|]. split; [exact A|]. split; [exact B|].
  assert (R : forall p, Forall2 Qeq (worths p ([] ++ es)) (worths p ([] ++ es))) by (intros p; induction (worths p ([] ++ es)); constructor; auto; reflexivity).
  split; [eapply greatest_eq; [exact C|apply R|exact A]|eapply greatest_eq; [exact D|apply R|exact B]].
Qed.
Print Assumptions C179_trainer.
Theorem C179_raises : forall epochs, Exists (Exists (fun b => has_empty_mask b \/ b_splits b = 0%nat)) epochs ->
  trainer epochs = Err ZeroDivisionError \/ trainer epochs = Err ValueError.
Proof.
  intros es. unfold trainer. generalize (0, 0, 0, 0)%Q. induction es as [|e es IH]; intros best X; inversion X as [? ? B|? ? B]; subst; cbn [trainer_loop].
  - assert (R : run test_row e = Err ZeroDivisionError \/ run test_row e = Err ValueError).
    { clear - B. induction e as [|b e IH]; [inversion B|]. cbn [run].
      assert (D : (exists y, test_row b = Ok y) \/ test_row b = Err ZeroDivisionError \/ test_row b = Err ValueError).
      { destruct (batch_dec b) as [H|[H|H]]; [left; destruct (test_row_ok b H) as (r & R & _); eauto|right; left; unfold test_row; rewrite test_err; auto|right; right; unfold test_row; rewrite test_none; auto]. }
      inversion B as [? ? H|? ? H]; subst.
      - destruct H as [H|H]; unfold test_row; [rewrite test_err; auto|rewrite test_none; auto].
      - destruct D as [[y ->]|[-> | ->]]; cbn [bind]; auto. destruct (IH H) as [-> | ->]; cbn [bind]; auto. }
    destruct R as [-> | ->]; cbn [bind]; auto.
  - destruct (run test_row e) as [rows|x] eqn:R; cbn [bind].
    + destruct best as [[[a b] c] d]. apply IH; auto.
    + clear - R. revert x R. induction e as [|b e IH]; cbn [run]; [discriminate|]. intros x. destruct (batch_dec b) as [H|[H|H]].
      * destruct (test_row_ok b H) as (r & -> & _). cbn [bind]. destruct (run test_row e) as [?|y]; cbn [bind]; [discriminate|]. intros E. injection E as <-. apply (IH y). auto.
      * unfold test_row. rewrite test_err; auto. cbn [bind]. intros E. injection E as <-. auto.
      * unfold test_row. rewrite test_none; auto. cbn. intros E. injection E as <-. auto.
Qed.
Print Assumptions C179_raises.

(** Two epochs of one batch with two splits: the validation share rises from 1/4 to 3/4. *)
Definition nd (y p : Z) (t v s : list bool) : node := {| n_label := y; n_pred := p; n_train := t; n_val := v; n_test := s |}.
Definition b178 (p : Z) : batch := {| b_splits := 2; b_nodes :=
  [nd 0 0 [true; false] [false; true] [false; false]; nd 1 p [false; true] [true; false] [false; false];
   nd 2 1 [false; false] [false; true] [true; false]; nd 0 0 [true; false] [false; false] [false; true]] |}.
Example C178_case : ~ has_empty_mask (b178 1) /\ (batch_share Validation (b178 2) == 1 # 4)%Q /\ (batch_share Validation (b178 1) == 3 # 4)%Q /\ (batch_share Testing (b178 1) == 1 # 2)%Q.
Proof. split; [|vm_compute; auto]. intros (p & i & I & E). cbn in I. destruct i as [|[|]]; [| |lia]; destruct p; vm_compute in E; discriminate. Qed.
Example C179_case : exists a b c d, trainer [[b178 2]; [b178 1]; [b178 2]] = Ok (a, b, c, d) /\ (a == 3 # 4)%Q /\ (b == 1 # 2)%Q /\ (c == 3 # 4)%Q /\ (d == 1 # 2)%Q.
Proof. do 4 eexists. split; [vm_compute; reflexivity|]. vm_compute. auto. Qed.
Example C179_bad : has_empty_mask {| b_splits := 1; b_nodes := [nd 0 0 [true] [false] [true]] |}.
Proof. exists Validation, 0%nat. split; [cbn; lia|reflexivity]. Qed.
