(** Model of how MidiDataset gathers the listed MIDI files: raw_file_names and download of midi_dataset.py, and
    the check torch_geometric makes before calling download (its Dataset._download: nothing is downloaded when
    there are raw files and all exist).
    Simplifications: a path is absolute or relative and is the list of its parts, without links, "~" and "..";
    a file system maps a path to a file or directory; the raw directory exists (torch_geometric makes it).
    Only the case of a list of files that is not empty is modelled, not downloading from a server. *)
From Verif Require Import PyBase.

(** What is found at a path; the content of a file is a number. [midi_dataset.py:430-432] *)
Inductive fnode : Type := FFile (content : Z) | FDir.
(** A file system. [midi_dataset.py:430-439] *)
Definition fsys : Type := list string -> option fnode.
(** midi_dataset.py:439 *)
Definition path_eqb (a b : list string) : bool := if list_eq_dec string_dec a b then true else false.
(** Writing a file. [midi_dataset.py:439] *)
Definition put (s : fsys) (p : list string) (c : Z) : fsys := fun q => if path_eqb q p then Some (FFile c) else s q.
(** A path as given in the list. [midi_dataset.py:429] *)
Record fpath : Type := mkPath { fp_abs : bool; fp_parts : list string }.
(** Path.resolve against the working directory, and os.path.join with a directory. [midi_dataset.py:429, 433] *)
Definition from_dir (dir : list string) (p : fpath) : list string := if fp_abs p then fp_parts p else dir ++ fp_parts p.
(** Path.name. [midi_dataset.py:433] *)
Definition name_of (p : list string) : string := last p ""%string.
(** How download ends: returned, RuntimeError for a file not found, or IsADirectoryError from shutil.
    [midi_dataset.py:430-442] *)
Inductive outcome : Type := Done | Missing | OnDirectory.
(** shutil.copy to a path: a directory is entered; the same file raises SameFileError, which is caught.
    [midi_dataset.py:438-442] *)
Definition copy (s : fsys) (src dst : list string) (c : Z) : option fsys :=
  let d := match s dst with Some FDir => dst ++ [name_of src] | _ => dst end in
  if path_eqb src d then Some s else match s d with Some FDir => None | _ => Some (put s d c) end.
(** The loop over the files; the list given by the user is changed in place: result, file system, list.
    [midi_dataset.py:428-442] *)
Fixpoint download (cwd raw : list string) (s : fsys) (files : list fpath) : outcome * (fsys * list fpath) :=
  match files with
  | [] => (Done, (s, []))
  | f :: r =>
    let p := from_dir cwd f in
    match s p with
    | None => (Missing, (s, f :: r))
    | Some FDir => let '(o, (s', r')) := download cwd raw s r in (o, (s', f :: r'))
    | Some (FFile c) =>
      let f' := mkPath false [name_of p] in
      match copy s p (raw ++ [name_of p]) c with
      | None => (OnDirectory, (s, f' :: r))
      | Some s1 => let '(o, (s', r')) := download cwd raw s1 r in (o, (s', f' :: r'))
      end
    end
  end.
(** raw_paths: raw_file_names in the raw directory. [midi_dataset.py:337-352, 462, 617] *)
Definition raw_paths (raw : list string) (files : list fpath) : list (list string) := map (from_dir raw) files.
(** torch_geometric's Dataset._download, called by the constructor. [midi_dataset.py:246, 420-442] *)
Definition gather (cwd raw : list string) (s : fsys) (files : list fpath) : outcome * (fsys * list fpath) :=
  if forallb (fun p => match s p with Some _ => true | None => false end) (raw_paths raw files) then (Done, (s, files))
  else download cwd raw s files.
