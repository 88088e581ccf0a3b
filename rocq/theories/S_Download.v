(** Specification for gathering the listed MIDI files. *)
From Verif Require Import PyBase M_Download.

(** The file a list entry means to its user. *)
Definition source (cwd : list string) (f : fpath) : list string := if fp_abs f then fp_parts f else cwd ++ fp_parts f.
(** Its name without directories. *)
Definition base (f : fpath) : string := last (fp_parts f) ""%string.
(** The usual case: entries are files, with names, outside the raw directory, and no directory there has the name of one. *)
Definition usual (cwd raw : list string) (s : fsys) (files : list fpath) : Prop :=
  forall f, In f files -> fp_parts f <> [] /\ (exists c, s (source cwd f) = Some (FFile c)) /\
    (forall n, source cwd f <> raw ++ [n]) /\ s (raw ++ [base f]) <> Some FDir.
(** Entry [i] of the list was replaced by its name. *)
Definition by_name (f : fpath) : fpath := mkPath false [base f].
(** The last entry with the name of [f]. *)
Definition last_named (files : list fpath) (f g : fpath) : Prop :=
  exists l1 l2, files = l1 ++ g :: l2 /\ base g = base f /\ forall h, In h l2 -> base h <> base f.
(** All raw files are there. *)
Definition all_there (raw : list string) (s : fsys) (files : list fpath) : Prop :=
  forall f, In f files -> s (source raw f) <> None.
