(** Model of the evaluation functions of the example scripts: Example02.test (example02.py), Example01.test
    (ngc_example05_gin.py), VariationGae.test (example04_gae.py) and ExampleNodeClassification.evaluate
    (example01_node_classification.py).
    Simplifications: numbers are exact; the networks are oracles: every node carries the class predicted for it,
    every edge the decoder's answer; None is nan; the losses are not modelled; [device] is defined. *)
From Verif Require Import PyBase.
Open Scope Z_scope.

(** A node: its label, the predicted class, whether it is in test_mask. [example02.py:132-142, ngc_example05_gin.py:125-138] *)
Record tnode : Type := mkT { t_label : Z; t_pred : Z; t_test : bool }.
(** torch.eq(pred_class_idx, y_masked). [example02.py:137-144, ngc_example05_gin.py:132-138] *)
Definition correct_of (b : list tnode) : list bool := map (fun x => Z.eqb (t_pred x) (t_label x)) (filter t_test b).
(** The number of True. [example02.py:145, ngc_example05_gin.py:144] *)
Definition trues (l : list bool) : Q := inject_Z (Z.of_nat (List.length (filter (fun b => b) l))).
(** The mean of booleans; of none it is nan. [example02.py:145, ngc_example05_gin.py:144] *)
Definition mean_of (l : list bool) : option Q :=
  match l with [] => None | _ => Some (trues l / inject_Z (Z.of_nat (List.length l)))%Q end.
(** a + b where nan stays nan. [example02.py:145] *)
Definition add_nan (a b : option Q) : option Q := match a, b with Some x, Some y => Some (x + y)%Q | _, _ => None end.
(** The loop: accuracy and total. [example02.py:132-146] *)
Definition loop2 (bs : list (list tnode)) : option Q * Z :=
  fold_left (fun s b => (add_nan (fst s) (mean_of (correct_of b)), snd s + Z.of_nat (List.length (correct_of b)))) bs (Some 0%Q, 0).
(** example02.py:126-147 test: accuracy / total; without a batch a float 0 is divided by 0, else a tensor. *)
Definition example02_test (bs : list (list tnode)) : res (option Q) :=
  let (a, total) := loop2 bs in
  match bs with
  | [] => Err ZeroDivisionError
  | _ => Ok (match a with Some x => Some (x / inject_Z total)%Q | None => None end)
  end.
(** ngc_example05_gin.py:117-146 test: the accuracy; np.concatenate of nothing is a ValueError. *)
Definition gin_test (bs : list (list tnode)) : res (option Q) :=
  match bs with [] => Err ValueError | _ => Ok (mean_of (List.concat (map correct_of bs))) end.
(** example04_gae.py:305-328 test: the accuracy; [pos] and [neg] are the decoder's answers for the edges that are
    and that are not there. *)
Definition gae_test (pos neg : list Q) : res Q :=
  let y_true := map (fun _ => true) pos ++ map (fun _ => false) neg in
  let y_pred := map (fun v => Qltb (1 # 2) v) (pos ++ neg) in
  match y_true with
  | [] => Err ZeroDivisionError
  | _ => Ok (trues (map (fun p => Bool.eqb (fst p) (snd p)) (combine y_pred y_true)) / inject_Z (Z.of_nat (List.length y_true)))%Q
  end.

(** The masks of a batch: one column, or a matrix given by its columns. [example01_node_classification.py:624-631] *)
Inductive mask : Type := OneColumn | Columns (cs : list (list bool)).
(** A batch of the test loader: three graphs in a list (after a link split), or a graph.
    [example01_node_classification.py:613-622] *)
Inductive loaded : Type := InList (size : nat) | Graph (train chosen : mask) (labels preds : list Z).
(** What kind of network is trained. [example01_node_classification.py:632-643] *)
Inductive network : Type := Gin | Gat | OtherNet.
(** One pass through the inner loop; it never gets past out_train, which is not defined here; the predictions
    are classes, one column. [example01_node_classification.py:630-657] *)
Definition inner (k : network) (chosen : mask) (i : nat) : res unit :=
  match chosen with
  | OneColumn => Err IndexError
  | Columns cs =>
    match nth_error cs i with
    | None => Err IndexError
    | Some c =>
      match k with
      | OtherNet => if existsb (fun b => b) c then Err NameError else Err ZeroDivisionError
      | _ => Err IndexError
      end
    end
  end.
(** One batch. [example01_node_classification.py:613-665] *)
Definition evaluate_batch (k : network) (b : loaded) : res unit :=
  match b with
  | InList n => if Nat.eqb n 3 then Err AttributeError else Err ValueError
  | Graph train chosen _ _ =>
    match train with
    | OneColumn => Err IndexError
    | Columns [] => Ok tt
    | Columns (_ :: _) => inner k chosen 0
    end
  end.
(** The loop over the batches. [example01_node_classification.py:613-665] *)
Fixpoint evaluate_loop (k : network) (bs : list loaded) : res unit :=
  match bs with [] => Ok tt | b :: r => bind (evaluate_batch k b) (fun _ => evaluate_loop k r) end.
(** example01_node_classification.py:602-672 evaluate: accuracy, f1, precision and recall; nothing was counted when
    the loop ends. *)
Definition evaluate (k : network) (bs : list loaded) : res (Q * Q * Q * Q) :=
  bind (evaluate_loop k bs) (fun _ => match bs with [] => Err ZeroDivisionError | _ => Ok (0, 0, 0, 0)%Q end).
