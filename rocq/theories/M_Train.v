(** Model of the experiments: the constructors of the trainers (ngc_shared.py: Experiments and its subclasses in
    the example files), and NgcTrainer.test and NgcTrainer.trainer of minimum_example_node_classification.py.
    Simplifications: numbers are exact; the network is an oracle: each test batch carries the class predicted
    for every node; a mean of nothing (numpy's nan) is None; scikit-learn's micro averages are written out. *)
From Verif Require Import PyBase.
Open Scope Z_scope.

(** What is passed to a constructor: None, an integer, a dataset, another object with __getitem__ and __len__
    (a list, a string), anything else. [ngc_shared.py:33-56] *)
Inductive arg : Type := ANone | AInt (n : Z) | AData | AList | AOther.
(** is None. [ngc_shared.py:46-51] *)
Definition is_none (a : arg) : bool := match a with ANone => true | _ => false end.
(** isinstance(a, int) and a > 0. [ngc_shared.py:55-56] *)
Definition positive_int (a : arg) : bool := match a with AInt n => 0 <? n | _ => false end.
(** hasattr __getitem__ and __len__. [ngc_shared.py:52] *)
Definition indexable (a : arg) : bool := match a with AData | AList => true | _ => false end.
(** An attribute that only a dataset has: num_classes, num_node_features, num_features. [ngc_shared.py:60] *)
Definition dataset_attr (a : arg) : res unit := match a with AData => Ok tt | _ => Err AttributeError end.
(** ngc_shared.py:33-106 Experiments.__init__(midi_dataset, epochs, batch_size, ...) *)
Definition experiments_init (midi epochs batch : arg) : res unit :=
  if is_none epochs then Err ValueError
  else if is_none batch then Err ValueError
  else if is_none midi then Err ValueError
  else if negb (indexable midi) then Err ValueError
  else if negb (positive_int batch) then Err AssertionError
  else if negb (positive_int epochs) then Err AssertionError
  else dataset_attr midi.
(** The five classes that call super().__init__(epochs, batch_size, midi_dataset), by what they do next with
    their own midi_dataset. [example01_node_classification.py:344-363, example02.py:72, ngc_example05_gin.py:60,
    example03_lstm.py:241-262, example04_gae.py:246-271] *)
Inductive experiment : Type := NodeClassification | Example2 | GinExample | GraphGeneration | VariationGae.
(** The constructor of such a class; the rest, building loaders and networks, is taken to succeed.
    [example01_node_classification.py:344-445, example02.py:68-88, ngc_example05_gin.py:56-76,
    example03_lstm.py:229-300, example04_gae.py:227-286] *)
Definition construct (c : experiment) (epochs batch midi : arg) : res unit :=
  bind (experiments_init epochs batch midi) (fun _ =>
  match c with
  | NodeClassification | GraphGeneration | VariationGae => dataset_attr midi
  | Example2 | GinExample => Ok tt
  end).
(** minimum_example_node_classification.py:289-311 NgcTrainer: the dataset comes first, the others by name. *)
Definition construct_ngc (midi epochs batch : arg) : res unit := experiments_init midi epochs batch.

(** A node of a test batch: its label, the predicted class, and its row of train_mask, val_mask and test_mask.
    [minimum_example_node_classification.py:332-344] *)
Record node : Type := { n_label : Z; n_pred : Z; n_train : list bool; n_val : list bool; n_test : list bool }.
(** A batch: the number of mask columns, and the nodes. [minimum_example_node_classification.py:334] *)
Record batch : Type := { b_splits : nat; b_nodes : list node }.
(** data.train_mask[:, i] and so on, m = 0, 1, 2. [minimum_example_node_classification.py:340-342] *)
Definition in_mask (m i : nat) (x : node) : bool :=
  nth i (match m with O => n_train x | 1%nat => n_val x | _ => n_test x end) false.
(** pred[mask] and data.y[mask], paired. [minimum_example_node_classification.py:344-345] *)
Definition masked (b : batch) (m i : nat) : list (Z * Z) := map (fun x => (n_pred x, n_label x)) (filter (in_mask m i) (b_nodes b)).
(** The number of elements with a property, as a number. [minimum_example_node_classification.py:346] *)
Definition count {A} (p : A -> bool) (l : list A) : Q := inject_Z (Z.of_nat (List.length (filter p l))).
(** sum(l). [minimum_example_node_classification.py:353] *)
Fixpoint qsum (l : list Q) : Q := match l with [] => 0%Q | x :: r => (x + qsum r)%Q end.
(** int((mask_pred == mask_y).sum()) / mask_sum. [minimum_example_node_classification.py:343-346] *)
Definition accuracy (l : list (Z * Z)) : res Q :=
  match l with [] => Err ZeroDivisionError | _ => Ok (count (fun x => fst x =? snd x) l / count (fun _ => true) l)%Q end.
(** The labels scikit-learn works with: those that occur as label or prediction, each once.
    [minimum_example_node_classification.py:349-351] *)
Definition labels (l : list (Z * Z)) : list Z := nodup Z.eq_dec (map fst l ++ map snd l).
(** Over all labels: correctly predicted, predicted, true. [minimum_example_node_classification.py:349-351] *)
Definition tp_sum (l : list (Z * Z)) : Q := qsum (map (fun c => count (fun x => (fst x =? c) && (snd x =? c)) l) (labels l)).
(** minimum_example_node_classification.py:350 *)
Definition pred_sum (l : list (Z * Z)) : Q := qsum (map (fun c => count (fun x => fst x =? c) l) (labels l)).
(** minimum_example_node_classification.py:351 *)
Definition true_sum (l : list (Z * Z)) : Q := qsum (map (fun c => count (fun x => snd x =? c) l) (labels l)).
(** precision_score(y, pred, average='micro'). [minimum_example_node_classification.py:350] *)
Definition micro_precision (l : list (Z * Z)) : Q := (tp_sum l / pred_sum l)%Q.
(** recall_score(y, pred, average='micro'). [minimum_example_node_classification.py:351] *)
Definition micro_recall (l : list (Z * Z)) : Q := (tp_sum l / true_sum l)%Q.
(** f1_score(y, pred, average='micro'): 2 p r / (p + r), 0 if both are 0. [minimum_example_node_classification.py:349] *)
Definition micro_f1 (l : list (Z * Z)) : Q :=
  let p := micro_precision l in let r := micro_recall l in (2 * p * r / (p + r))%Q.
(** The four scores of one mask. [minimum_example_node_classification.py:343-351] *)
Definition scores (l : list (Z * Z)) : res (list Q) :=
  bind (accuracy l) (fun a => Ok [a; micro_f1 l; micro_precision l; micro_recall l]).
(** A loop that stops at the first exception. [minimum_example_node_classification.py:339-351] *)
Fixpoint run {A B} (f : A -> res B) (l : list A) : res (list B) :=
  match l with [] => Ok [] | x :: r => bind (f x) (fun y => bind (run f r) (fun ys => Ok (y :: ys))) end.
(** The table of scores: for each split, for each of the three masks, the four scores.
    [minimum_example_node_classification.py:339-351] *)
Definition table (b : batch) : res (list (list (list Q))) :=
  run (fun i => run (fun m => scores (masked b m i)) [0; 1; 2]%nat) (seq 0 (b_splits b)).
(** [sum(column) / len(metric) for column in zip of the rows of metric] for score [s]: three means, or nothing without a
    split. [minimum_example_node_classification.py:353-361] *)
Definition column_means (s : nat) (t : list (list (list Q))) : list Q :=
  match t with
  | [] => []
  | _ => map (fun m => (qsum (map (fun row => nth s (nth m row []) 0%Q) t) / inject_Z (Z.of_nat (List.length t)))%Q) [0; 1; 2]%nat
  end.
(** minimum_example_node_classification.py:329-361 NgcTrainer.test: accuracy, f1, precision, recall; each for
    the train, validation and test masks. *)
Definition test (b : batch) : res (list (list Q)) := bind (table b) (fun t => Ok (map (fun s => column_means s t) [0; 1; 2; 3]%nat)).
(** accuracy_arr[i] = accuracies: a row of three. [minimum_example_node_classification.py:390-393] *)
Definition test_row (b : batch) : res (list (list Q)) :=
  bind (test b) (fun r => if forallb (fun x => Nat.eqb (List.length x) 3) r then Ok r else Err ValueError).
(** arr.mean(axis=0)[m] for the score [s]; None is nan. [minimum_example_node_classification.py:396-399] *)
Definition batch_mean (s m : nat) (rows : list (list (list Q))) : option Q :=
  match rows with
  | [] => None
  | _ => Some (qsum (map (fun r => nth m (nth s r []) 0%Q) rows) / inject_Z (Z.of_nat (List.length rows)))%Q
  end.
(** if mean > best: best = mean; a comparison with nan is false. [minimum_example_node_classification.py:401-408] *)
Definition better (best : Q) (x : option Q) : Q := match x with Some v => if Qltb best v then v else best | None => best end.
(** The four values kept over the epochs: final_test_acc, best_val_acc, best_test_f1, best_val_f1. [epochs]
    lists, for each epoch, the test batches with what the network then predicts.
    [minimum_example_node_classification.py:370-408] *)
Fixpoint trainer_loop (epochs : list (list batch)) (best : Q * Q * Q * Q) : res (Q * Q * Q * Q) :=
  match epochs with
  | [] => Ok best
  | e :: r =>
    bind (run test_row e) (fun rows =>
    let '(fta, bva, btf, bvf) := best in
    trainer_loop r (better fta (batch_mean 0 1 rows), better bva (batch_mean 0 2 rows), better btf (batch_mean 1 1 rows), better bvf (batch_mean 1 2 rows)))
  end.
(** minimum_example_node_classification.py:363-438 NgcTrainer.trainer; training steps only change what the
    network predicts later. *)
Definition trainer (epochs : list (list batch)) : res (Q * Q * Q * Q) := trainer_loop epochs (0, 0, 0, 0)%Q.
