(** Properties C64, C97 and C98: checkpoints and metrics of a trainer.
    [t_run t0 ops] is the trainer [t0] after the calls [ops]; [load_checkpoint t m cd ls] loads for
    model name [m] from directory [cd], [ls] being the order in which glob lists files. *)
From Coq Require Import Permutation Ascii Lia.
From Verif Require Import PyBase M_Chord M_Experiments S_Experiments L_Experiments L_Experiments2.
Open Scope Z_scope.

(** C64, C98: after any history from an empty file system, loading restores the model and optimizer
    states saved with the greatest epoch among the checkpoints of that directory (the latest such
    save if there are several), and continues with the epoch after it.
    If that save was interrupted, loading raises and leaves the states as they were. *)
Theorem C64_C98_latest : forall t0 ops1 ops2 epoch opt out name (complete : bool) m cd ls,
  t_files t0 = [] -> join out name = join cd m -> cd <> EmptyString -> plain m -> t_mdir t0 <> EmptyString -> t_mdir t0 <> join cd m ->
  (forall l, Permutation (ls l) l) ->
  (forall o e, In o ops1 -> saves_into (join cd m) o e -> e <= epoch) -> (forall o e, In o ops2 -> saves_into (join cd m) o e -> e < epoch) ->
  let t := t_run t0 (ops1 ++ OSave epoch opt out name complete :: ops2) in t_opt t <> None ->
  exists t', load_checkpoint t m cd ls = ((if complete then Ok tt else Err RuntimeError), t') /\ t_metric t' = t_metric t /\ keeps_files t t' /\
    if complete then t_model t' = t_model (t_run t0 ops1) /\ t_opt t' = Some opt /\ t_start t' = epoch + 1 /\ t_cur t' = epoch + 1
    else t_model t' = t_model t /\ t_opt t' = t_opt t /\ t_start t' = t_start t /\ t_cur t' = t_cur t.
Proof. exact load_latest. Qed.
Print Assumptions C64_C98_latest.
(** C64: without a checkpoint in that directory nothing changes (the directory is created). *)
Theorem C64_none : forall t0 ops m cd ls, t_files t0 = [] -> cd <> EmptyString -> t_mdir t0 <> join cd m -> (forall l, Permutation (ls l) l) -> (forall o e, In o ops -> ~ saves_into (join cd m) o e) ->
  let t := t_run t0 ops in load_checkpoint t m cd ls = (Ok tt, with_files t (mkdir (t_files t) cd)).
Proof. exact load_none. Qed.
Print Assumptions C64_none.
(** C64: saving never fails, and the file names of different epochs differ. *)
Theorem C64_save : forall t e o out name c, fst (save_checkpoint t e o out name c) = Ok tt.
Proof. exact save_result. Qed.
Print Assumptions C64_save.
Theorem C64_names : forall a b, point_name a = point_name b -> a = b.
Proof. exact name_inj. Qed.
Print Assumptions C64_names.
Definition t_new : trainer := mkT 0 (Some 0) 0 0 (fun _ => []) "gcn" "metric" true 100 [].
Definition ops_ex : list t_op := [OTrain 1 (Some 11) 0; OSave 9 11 "ck" "gcn" true; OTrain 2 (Some 12) 0; OSave 10 12 "ck" "gcn" true; OTrain 3 (Some 13) 0; OSave 5 13 "ck" "gcn" true; OSave 99 13 "ck" "gat" true; OVal 1 1 1 1; OTrain 4 (Some 14) 0].
Example C64_case : join "ck" "gcn" = "ck/gcn"%string /\ point_name 10 = "checkpoint_10.pt"%string /\ point_name (-3) = "checkpoint_-3.pt"%string /\
  let t := snd (load_checkpoint (t_run t_new ops_ex) "gcn" "ck" (@rev string)) in t_model t = 2 /\ t_opt t = Some 12 /\ t_start t = 11.
Proof. vm_compute. repeat split. Qed.
Example C98_case : fst (load_checkpoint (t_run t_new (ops_ex ++ [OSave 11 14 "ck" "gcn" false; OSave 4 14 "ck" "gcn" true])) "gcn" "ck" (fun l => l)) = Err RuntimeError.
Proof. vm_compute. reflexivity. Qed.

(** C97: loading never restores metrics (unless the metrics directory is the empty string). *)
Theorem C97_not_restored : forall t m cd ls, t_mdir t <> EmptyString -> plain m -> t_metric (snd (load_checkpoint t m cd ls)) = t_metric t.
Proof. exact load_metrics_kept. Qed.
Print Assumptions C97_not_restored.
(** C97: with the empty string, loading after training metrics were written raises KeyError. *)
Theorem C97_cwd : forall t0 ops1 ops2 epoch op out name m cd ls l f a r p, t_files t0 = [] -> join out name = join cd m -> cd <> EmptyString -> plain m -> t_mdir t0 = EmptyString -> join cd m <> EmptyString ->
  (forall l, Permutation (ls l) l) ->
  (forall o e, In o ops1 -> saves_into (join cd m) o e -> e <= epoch) -> (forall o e, In o ops2 -> saves_into (join cd m) o e -> e < epoch) ->
  let t1 := t_run t0 (ops1 ++ OSave epoch op out name true :: ops2) in due t1 = true -> t_type t1 = m -> t_opt t1 <> None ->
  let t := t_do t1 (OMetrics l f a r p) in
  fst (load_checkpoint t m cd ls) = Err KeyError.
Proof. exact load_key_error. Qed.
Print Assumptions C97_cwd.
(** C97: the training metrics file holds the validation lists; the test metrics file too, with the
    areas and precisions of the test; the validation file holds the validation lists. *)
Theorem C97_train_file : forall t l f a r p, due t = true -> exists t', update_metrics t l f a r p = (Ok tt, t') /\
  read_file (t_files t') (t_mdir t) (t_type t ++ "_train_metrics.pt") =
    Some (CMetrics [("test_accs", t_metric t val_accs); ("tet_f1s", t_metric t val_f1s); ("test_precisions", t_metric t val_precisions); ("test_recalls", t_metric t val_recalls)]%string).
Proof. intros t l f a r p D. destruct (update_writes t l f a r p D) as [t' [A B]]. exists t'. rewrite read_contents. auto. Qed.
Print Assumptions C97_train_file.
Theorem C97_test_file : forall t a f p r ap au, due t = true -> exists t', update_test_metric t a f p r ap au = (Ok tt, t') /\
  read_file (t_files t') (t_mdir t) (t_type t ++ "_test_metrics.pt") =
    Some (CMetrics [("test_accs", t_metric t val_accs); ("tet_f1s", t_metric t val_f1s); ("test_precisions", t_metric t val_precisions); ("test_recalls", t_metric t val_recalls);
                    ("test_aucs", (t_metric t test_aucs ++ given au)%list); ("test_aps", (t_metric t test_aps ++ given ap)%list)]%string).
Proof. intros t a f p r ap au D. destruct (test_writes t a f p r ap au D) as [t' [A B]]. exists t'. rewrite read_contents. auto. Qed.
Print Assumptions C97_test_file.
Theorem C97_val_file : forall t a f p r, due t = true -> get_dir (t_files t) (t_mdir t) <> None ->
  exists t', update_val_metric t a f p r = (Ok tt, t') /\
  read_file (t_files t') (t_mdir t) (t_type t ++ "_validation_metrics.pt") =
    Some (CMetrics [("val_accs", (t_metric t val_accs ++ [a])%list); ("val_f1s", (t_metric t val_f1s ++ [f])%list); ("val_precisions", (t_metric t val_precisions ++ [p])%list); ("val_recalls", (t_metric t val_recalls ++ [r])%list)]%string).
Proof. intros t a f p r D G. destruct (val_writes t a f p r D G) as [t' [A B]]. exists t'. rewrite read_contents. auto. Qed.
Print Assumptions C97_val_file.
(** C97: validation metrics recorded before the metrics directory exists are kept in memory, but
    writing them raises. *)
Theorem C97_val_no_dir : forall t a f p r, due t = true -> t_mdir t <> EmptyString -> get_dir (t_files t) (t_mdir t) = None ->
  exists t', update_val_metric t a f p r = (Err RuntimeError, t') /\ t_files t' = t_files t /\ t_metric t' val_accs = t_metric t val_accs ++ [a].
Proof. exact val_no_dir. Qed.
Print Assumptions C97_val_no_dir.
(** C97: an update appends the given values to the training lists and to nothing else. *)
Theorem C97_lists : forall t l f a r p, let m := t_metric (snd (update_metrics t l f a r p)) in
  m train_losses = t_metric t train_losses ++ given l /\ m train_f1s = t_metric t train_f1s ++ given f /\ m train_accs = t_metric t train_accs ++ given a /\
  m train_recalls = t_metric t train_recalls ++ given r /\ m train_precisions = t_metric t train_precisions ++ given p /\
  (forall n, ~ In n [train_losses; train_f1s; train_accs; train_recalls; train_precisions] -> m n = t_metric t n).
Proof. exact update_metrics_lists. Qed.
Print Assumptions C97_lists.
(** C97: metrics files are written when saving is on and the rate is not 0 and divides the current
    epoch; otherwise an update raises nothing and writes nothing. *)
Theorem C97_when : forall t, (due t = true <-> t_save t = true /\ t_rate t <> 0 /\ exists k, t_cur t = k * t_rate t) /\
  (due t = false -> forall l f a r p ap au x y z w,
    fst (update_metrics t l f a r p) = Ok tt /\ t_files (snd (update_metrics t l f a r p)) = t_files t /\
    fst (update_test_metric t a f p r ap au) = Ok tt /\ t_files (snd (update_test_metric t a f p r ap au)) = t_files t /\
    fst (update_val_metric t x y z w) = Ok tt /\ t_files (snd (update_val_metric t x y z w)) = t_files t).
Proof.
  intros t. split.
  - unfold due. rewrite !andb_true_iff, negb_true_iff, Z.eqb_neq, Z.eqb_eq. split.
    + intros [[A B] C]. repeat split; auto. exists (t_cur t / t_rate t). pose proof (Z.div_mod (t_cur t) (t_rate t) B). lia.
    + intros [A [B [k C]]]. repeat split; auto. rewrite C. apply Z.mod_mul. exact B.
  - intros D l f a r p ap au x y z w. unfold update_metrics, update_test_metric, update_val_metric, write_metrics. cbv zeta.
    assert (E : forall m, due (with_metric t m) = false) by (intros m; exact D). rewrite !E. repeat split.
Qed.
Print Assumptions C97_when.
(** C97: clearing empties every list and changes nothing else. *)
Theorem C97_clear : forall t, let t' := clear_metric t in (forall n, t_metric t' n = []) /\
  t_model t' = t_model t /\ t_opt t' = t_opt t /\ t_start t' = t_start t /\ t_cur t' = t_cur t /\ t_type t' = t_type t /\
  t_mdir t' = t_mdir t /\ t_save t' = t_save t /\ t_rate t' = t_rate t /\ t_files t' = t_files t.
Proof. intros t. cbv zeta. repeat split. Qed.
Print Assumptions C97_clear.
Example C97_case : due t_new = true /\ fst (t_do t_new (OVal 1 1 1 1), update_val_metric t_new 1 1 1 1) = t_do t_new (OVal 1 1 1 1) /\ fst (update_val_metric t_new 1 1 1 1) = Err RuntimeError /\
  (let t := t_run t_new [OMetrics (Some 1%Q) None None None None; OVal (1 # 2) 1 1 1; OMetrics (Some 2%Q) None None None None; OSave 3 7 "ck" "gcn" true; OClear] in
   read_file (t_files t) "metric" "gcn_train_metrics.pt" = Some (CMetrics [("test_accs", [(1 # 2)%Q]); ("tet_f1s", [1%Q]); ("test_precisions", [1%Q]); ("test_recalls", [1%Q])]%string) /\
   t_metric (snd (load_checkpoint t "gcn" "ck" (fun l => l))) train_losses = [] /\ t_start (snd (load_checkpoint t "gcn" "ck" (fun l => l))) = 4) /\
  (let t0 := mkT 0 (Some 0) 0 0 (fun _ => []) "gcn" "" true 100 [] in fst (load_checkpoint (t_run t0 [OSave 3 7 "ck" "gcn" true; OMetrics (Some 1%Q) None None None None]) "gcn" "ck" (fun l => l)) = Err KeyError).
Proof. vm_compute. repeat split. Qed.
