(** Model of ngc_shared.py: Experiments.save_checkpoint, load_checkpoint, update_metrics,
    update_test_metric, update_val_metric, clear_metric.
    Simplifications: states of models and optimizers are integers (which state it is); the file
    system is a list of directories, identified by the path as it is spelled, each a list of plain
    files; parents that os.makedirs creates are only those named; model names contain no
    characters special to glob; Python's int() also accepts blanks around the number, not
    modelled; a state dict that does not fit the model is not modelled; printing and plotting are
    not modelled. *)
From Coq Require Import Ascii DecimalString.
From Verif Require Import PyBase M_Chord.
Open Scope Z_scope.

(** ** Paths *)
(** os.path.join(a, b). [ngc_shared.py:203, 206, 222] *)
Fixpoint ends_slash (s : string) : bool :=
  match s with EmptyString => false | String c EmptyString => Ascii.eqb c "/" | String _ r => ends_slash r end.
(** ngc_shared.py:203, 206 *)
Definition join (a b : string) : string :=
  match b with
  | String "/" _ => b
  | _ => match a with EmptyString => b | _ => if ends_slash a then (a ++ b)%string else (a ++ "/" ++ b)%string end
  end.
(** The pattern "*.pt": a name that ends in .pt and does not start with a dot. [ngc_shared.py:227-228] *)
Fixpoint ends_pt (s : string) : bool :=
  if String.eqb s ".pt" then true else match s with EmptyString => false | String _ r => ends_pt r end.
(** ngc_shared.py:227-228 *)
Definition globbed (s : string) : bool := match s with String "." _ => false | _ => ends_pt s end.
(** os.path.splitext(name)[0] for such a name: without its last three characters. [ngc_shared.py:233] *)
Definition stem (s : string) : string := substring 0 (String.length s - 3) s.
(** s.split('_')[-1]. [ngc_shared.py:233] *)
Fixpoint has_us (s : string) : bool := match s with EmptyString => false | String c r => Ascii.eqb c "_" || has_us r end.
(** ngc_shared.py:233 *)
Fixpoint last_field (s : string) : string :=
  match s with EmptyString => EmptyString | String c r => if has_us r then last_field r else if Ascii.eqb c "_" then r else s end.
(** int(s); str(n). [ngc_shared.py:233] *)
Definition py_int (s : string) : option Z :=
  match s with
  | String "+" r => option_map (fun d => Z.of_int (Decimal.Pos d)) (NilZero.uint_of_string r)
  | _ => option_map Z.of_int (NilZero.int_of_string s)
  end.
(** ngc_shared.py:233 *)
Definition py_str (n : Z) : string := NilZero.string_of_int (Z.to_int n).
(** ngc_shared.py:233 *)
Definition file_key (name : string) : option Z := py_int (last_field (stem name)).

(** ** Files *)
(** What torch.save wrote: a checkpoint (ngc_shared.py:208-212), a dictionary of metrics, or, if it
    was interrupted, something torch.load does not accept. *)
Inductive content : Type := CPoint (epoch model opt : Z) | CMetrics (l : list (string * list Q)) | CBroken.
(** ngc_shared.py:208-212 *)
Definition dir : Type := list (string * content).
(** ngc_shared.py:208-212 *)
Definition files : Type := list (string * dir).
(** ngc_shared.py:208-212 *)
Definition get_dir (f : files) (d : string) : option dir := dict_get String.eqb d f.
(** os.makedirs of a missing directory. [ngc_shared.py:205, 220] *)
Definition mkdir (f : files) (d : string) : files := match get_dir f d with Some _ => f | None => dict_set String.eqb d [] f end.
(** torch.save(c, join(d, name)); the current directory ("") always exists. [ngc_shared.py:208] *)
Definition put_file (f : files) (d name : string) (c : content) : res unit * files :=
  match get_dir f d with
  | Some l => (Ok tt, dict_set String.eqb d (dict_set String.eqb name c l) f)
  | None => match d with EmptyString => (Ok tt, dict_set String.eqb d [(name, c)] f) | _ => (Err RuntimeError, f) end
  end.

(** ** The trainer *)
(** ngc_shared.py:88-102. *)
Inductive mname : Type :=
| val_precisions | val_f1s | val_accs | val_recalls | test_recalls | test_precisions | test_accs | test_f1s
| train_precisions | train_recalls | train_f1s | train_accs | train_losses | test_aps | test_aucs.
(** ngc_shared.py:88-102 *)
Definition mname_eqb (a b : mname) : bool :=
  match a, b with
  | val_precisions, val_precisions | val_f1s, val_f1s | val_accs, val_accs | val_recalls, val_recalls
  | test_recalls, test_recalls | test_precisions, test_precisions | test_accs, test_accs | test_f1s, test_f1s
  | train_precisions, train_precisions | train_recalls, train_recalls | train_f1s, train_f1s | train_accs, train_accs
  | train_losses, train_losses | test_aps, test_aps | test_aucs, test_aucs => true
  | _, _ => false
  end.
(** ngc_shared.py:88-102 *)
Record trainer : Type := mkT {
  t_model : Z; t_opt : option Z; t_start : Z; t_cur : Z; t_metric : mname -> list Q;
  t_type : string; t_mdir : string; t_save : bool; t_rate : Z; t_files : files }.
(** ngc_shared.py:88-102 *)
Definition with_files (t : trainer) (f : files) : trainer :=
  mkT (t_model t) (t_opt t) (t_start t) (t_cur t) (t_metric t) (t_type t) (t_mdir t) (t_save t) (t_rate t) f.
(** ngc_shared.py:88-102 *)
Definition with_metric (t : trainer) (m : mname -> list Q) : trainer :=
  mkT (t_model t) (t_opt t) (t_start t) (t_cur t) m (t_type t) (t_mdir t) (t_save t) (t_rate t) (t_files t).
(** ngc_shared.py:88-102 *)
Definition with_states (t : trainer) (m : Z) (o : option Z) (s c : Z) : trainer :=
  mkT m o s c (t_metric t) (t_type t) (t_mdir t) (t_save t) (t_rate t) (t_files t).

(** ngc_shared.py:195-212 save_checkpoint; [complete] is false if the process dies in torch.save. *)
Definition point_name (epoch : Z) : string := ("checkpoint_" ++ py_str epoch ++ ".pt")%string.
(** ngc_shared.py:195-212 *)
Definition save_checkpoint (t : trainer) (epoch opt : Z) (out name : string) (complete : bool) : res unit * trainer :=
  let d := join out name in
  let f := match get_dir (t_files t) d with Some _ => t_files t | None => mkdir (match out with EmptyString => t_files t | _ => mkdir (t_files t) out end) d end in
  let '(r, f') := put_file f d (point_name epoch) (if complete then CPoint epoch (t_model t) opt else CBroken) in
  (r, with_files t f').

(** ngc_shared.py:245-263: the lists read from a metrics file, in order. *)
Fixpoint read_metrics (m : mname -> list Q) (keys : list (string * mname)) (l : list (string * list Q)) : res unit * (mname -> list Q) :=
  match keys with
  | [] => (Ok tt, m)
  | (k, n) :: r => match dict_get String.eqb k l with
                   | None => (Err KeyError, m)
                   | Some v => read_metrics (fun x => if mname_eqb x n then v else m x) r l
                   end
  end.
(** ngc_shared.py:245-263 *)
Definition train_keys := [("train_losses", train_losses); ("train_accs", train_accs); ("train_f1s", train_f1s); ("train_precisions", train_precisions); ("train_recalls", train_recalls)]%string.
(** ngc_shared.py:245-263 *)
Definition val_keys := [("val_accs", val_accs); ("val_f1s", val_f1s); ("val_precisions", val_precisions); ("val_recalls", val_recalls)]%string.
(** ngc_shared.py:245-263 *)
Definition test_keys := [("test_accs", test_accs); ("test_f1s", test_f1s); ("test_precisions", test_precisions); ("test_recalls", test_recalls)]%string.
(** ngc_shared.py:228: the paths that match model_type*.pt in the metrics directory. *)
Definition metrics_files (t : trainer) (model_type : string) : list string :=
  match get_dir (t_files t) (t_mdir t) with
  | None => []
  | Some l => map (join (t_mdir t)) (filter (fun n => String.prefix model_type n && ends_pt n) (map fst l))
  end.
(** ngc_shared.py:242-244, 250-251, 257-258: look for the bare file name among the paths. *)
Definition restore (t : trainer) (model_type suffix : string) (paths : list string) (keys : list (string * mname)) : res unit * trainer :=
  let name := (model_type ++ suffix)%string in
  if t_save t && existsb (String.eqb name) paths then
    match get_dir (t_files t) (t_mdir t) with
    | None => (Err FileNotFoundError, t)
    | Some l => match dict_get String.eqb name l with
                | None => (Err FileNotFoundError, t)
                | Some (CMetrics m) => let '(r, m') := read_metrics (t_metric t) keys m in (r, with_metric t m')
                | Some (CPoint _ _ _) => (Err KeyError, t)
                | Some CBroken => (Err RuntimeError, t)
                end
    end
  else (Ok tt, t).
(** ngc_shared.py:214-265 load_checkpoint; [listing] is the order in which glob lists files. *)
Definition load_checkpoint (t : trainer) (model_type cdir : string) (listing : list string -> list string) : res unit * trainer :=
  match (match cdir with EmptyString => Err FileNotFoundError | _ => Ok (mkdir (t_files t) cdir) end) with
  | Err e => (Err e, t)
  | Ok f =>
    let t0 := with_files t f in
    match get_dir f (join cdir model_type) with
    | None => (Ok tt, t0)
    | Some l =>
      let names := listing (filter globbed (map fst l)) in
      let paths := metrics_files t0 model_type in
      match names with
      | [] => (Ok tt, t0)
      | _ =>
        if forallb (fun n => match file_key n with Some _ => true | None => false end) names then
          let key n := match file_key n with Some k => k | None => 0 end in
          let sorted := py_sort (fun a b => key a <? key b) names in
          match dict_get String.eqb (last sorted EmptyString) l with
          | None => (Err FileNotFoundError, t0)
          | Some CBroken => (Err RuntimeError, t0)
          | Some (CMetrics _) => (Err KeyError, t0)
          | Some (CPoint e m o) =>
            match t_opt t0 with
            | None => (Err AttributeError, with_states t0 m None (t_start t0) (t_cur t0))
            | Some _ =>
              let t1 := with_states t0 m (Some o) (e + 1) (e + 1) in
              match restore t1 model_type "_train_metrics.pt" paths train_keys with
              | (Err x, t2) => (Err x, t2)
              | (Ok _, t2) =>
                match restore t2 model_type "_validation_metrics.pt" paths val_keys with
                | (Err x, t3) => (Err x, t3)
                | (Ok _, t3) => restore t3 model_type "_test_metrics.pt" paths test_keys
                end
              end
            end
          end
        else (Err ValueError, t0)
      end
    end
  end.

(** list.append of the values that are given. [ngc_shared.py:267-376] *)
Definition append_opt (m : mname -> list Q) (n : mname) (v : option Q) : mname -> list Q :=
  match v with None => m | Some q => fun x => if mname_eqb x n then m x ++ [q] else m x end.
(** ngc_shared.py:267-376 *)
Definition due (t : trainer) : bool := t_save t && negb (t_rate t =? 0) && (t_cur t mod t_rate t =? 0).
(** ngc_shared.py:267-376 *)
Definition write_metrics (t : trainer) (make_dir : bool) (suffix : string) (l : list (string * list Q)) : res unit * trainer :=
  if due t then
    let f := if make_dir then match t_mdir t with EmptyString => t_files t | d => mkdir (t_files t) d end else t_files t in
    let '(r, f') := put_file f (t_mdir t) (t_type t ++ suffix) (CMetrics l) in (r, with_files t f')
  else (Ok tt, t).
(** ngc_shared.py:299-306, 346-351, 369-374: the dictionaries written. *)
Definition val_dump (t : trainer) : list (string * list Q) :=
  [("val_accs", t_metric t val_accs); ("val_f1s", t_metric t val_f1s); ("val_precisions", t_metric t val_precisions); ("val_recalls", t_metric t val_recalls)]%string.
(** ngc_shared.py:299-306, 346-351, 369-374 *)
Definition train_dump (t : trainer) : list (string * list Q) :=
  [("test_accs", t_metric t val_accs); ("tet_f1s", t_metric t val_f1s); ("test_precisions", t_metric t val_precisions); ("test_recalls", t_metric t val_recalls)]%string.
(** ngc_shared.py:299-306, 346-351, 369-374 *)
Definition test_dump (t : trainer) : list (string * list Q) :=
  train_dump t ++ [("test_aucs", t_metric t test_aucs); ("test_aps", t_metric t test_aps)]%string.
(** ngc_shared.py:313-353 update_metrics. *)
Definition update_metrics (t : trainer) (loss f1 acc recall precision : option Q) : res unit * trainer :=
  let m := append_opt (append_opt (append_opt (append_opt (append_opt (t_metric t) train_losses loss) train_f1s f1) train_accs acc) train_recalls recall) train_precisions precision in
  let t1 := with_metric t m in write_metrics t1 true "_train_metrics.pt" (train_dump t1).
(** ngc_shared.py:267-311 update_test_metric. *)
Definition update_test_metric (t : trainer) (acc f1 precision recall ap auc : option Q) : res unit * trainer :=
  let m := append_opt (append_opt (append_opt (append_opt (append_opt (append_opt (t_metric t) test_accs acc) test_f1s f1) test_precisions precision) test_recalls recall) test_aucs auc) test_aps ap in
  let t1 := with_metric t m in write_metrics t1 true "_test_metrics.pt" (test_dump t1).
(** ngc_shared.py:355-376 update_val_metric; the directory is not created. *)
Definition update_val_metric (t : trainer) (acc f1 precision recall : Q) : res unit * trainer :=
  let m := append_opt (append_opt (append_opt (append_opt (t_metric t) val_accs (Some acc)) val_f1s (Some f1)) val_precisions (Some precision)) val_recalls (Some recall) in
  let t1 := with_metric t m in write_metrics t1 false "_validation_metrics.pt" (val_dump t1).
(** ngc_shared.py:428-462 clear_metric. *)
Definition clear_metric (t : trainer) : trainer := with_metric t (fun _ => []).
