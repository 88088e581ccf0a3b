(** Specification for checkpoints and metrics. *)
From Coq Require Import Permutation Ascii.
From Verif Require Import PyBase M_Chord M_Experiments.
Open Scope Z_scope.

(** Histories of a trainer: training steps (which change the model, the optimizer and the current
    epoch in any way), saved checkpoints (interrupted ones included), loads and metric updates,
    successful or not. *)
Inductive t_op : Type :=
| OTrain (model : Z) (opt : option Z) (cur : Z)
| OSave (epoch opt : Z) (out name : string) (complete : bool)
| OLoad (model_type cdir : string) (listing : list string -> list string)
| OMetrics (loss f1 acc recall precision : option Q)
| OTest (acc f1 precision recall ap auc : option Q)
| OVal (acc f1 precision recall : Q)
| OClear.
Definition t_do (t : trainer) (o : t_op) : trainer :=
  match o with
  | OTrain m op c => with_states t m op (t_start t) c
  | OSave e op out name c => snd (save_checkpoint t e op out name c)
  | OLoad ty cd ls => snd (load_checkpoint t ty cd ls)
  | OMetrics a b c d e => snd (update_metrics t a b c d e)
  | OTest a b c d e f => snd (update_test_metric t a b c d e f)
  | OVal a b c d => snd (update_val_metric t a b c d)
  | OClear => clear_metric t
  end.
Definition t_run (t : trainer) (ops : list t_op) : trainer := fold_left t_do ops t.
(** The operation writes the checkpoint of an epoch into directory [d]. *)
Definition saves_into (d : string) (o : t_op) (epoch : Z) : Prop :=
  exists opt out name c, o = OSave epoch opt out name c /\ join out name = d.
(** No slash in a name. *)
Fixpoint plain (s : string) : Prop := match s with EmptyString => True | String c r => c <> "/"%char /\ plain r end.
(** Files that existed are as they were. *)
Definition keeps_files (t t' : trainer) : Prop := forall d l, get_dir (t_files t) d = Some l -> get_dir (t_files t') d = Some l.
(** The content of a file. *)
Definition read_file (f : files) (d name : string) : option content := match get_dir f d with Some l => dict_get String.eqb name l | None => None end.
(** Zero or one value. *)
Definition given (v : option Q) : list Q := match v with Some q => [q] | None => [] end.
