(** Specification for reading notes from JSON. *)
From Coq Require Import String.
From Verif Require Import PyBase M_Note M_NoteJson.
Open Scope string_scope.
Open Scope Z_scope.

(** The parameters of MidiNote. *)
Definition parameters : list string :=
  ["pitch"; "start_time"; "end_time"; "program"; "instrument"; "velocity"; "quantized_start_step"; "quantized_end_step";
   "voice"; "numerator"; "denominator"; "is_drum"]%string.
Definition marker : string := "__MidiNote__".
(** Every object inside has different keys. *)
Inductive tidy : jv -> Prop :=
| tidy_list : forall l, (forall x, In x l -> tidy x) -> tidy (JList l)
| tidy_obj : forall o, NoDup (map fst o) -> (forall k x, In (k, x) o -> tidy x) -> tidy (JObj o)
| tidy_leaf : forall v, (forall l, v <> JList l) -> (forall o, v <> JObj o) -> tidy v.
(** No object inside has the marker. *)
Inductive unmarked : jv -> Prop :=
| un_list : forall l, (forall x, In x l -> unmarked x) -> unmarked (JList l)
| un_obj : forall o, ~ In marker (map fst o) -> (forall k x, In (k, x) o -> unmarked x) -> unmarked (JObj o)
| un_leaf : forall v, (forall l, v <> JList l) -> (forall o, v <> JObj o) -> unmarked v.
(** The dictionary says [x] for the key, or nothing and [x] is the default. *)
Definition says {A} (d : list (string * jv)) (k : string) (fits : jv -> A -> Prop) (dflt : option A) (x : A) : Prop :=
  (exists v, In (k, v) d /\ fits v x) \/ (~ In k (map fst d) /\ dflt = Some x).
Definition int_fits (v : jv) (z : Z) : Prop := v = JInt z.
Definition num_fits (v : jv) (q : Q) : Prop := v = JFloat q \/ exists z, v = JInt z /\ q = inject_Z z.
Definition bool_fits (v : jv) (b : bool) : Prop := v = JBool b.
(** The dictionary describes the arguments [n] of a note. *)
Definition describes (d : list (string * jv)) (n : note) : Prop :=
  NoDup (map fst d) /\ (forall k, In k (map fst d) -> In k parameters) /\
  says d "pitch" int_fits None (n_pitch n) /\ says d "start_time" num_fits None (n_start n) /\ says d "end_time" num_fits None (n_end n) /\
  says d "program" int_fits (Some 0) (n_program n) /\ says d "instrument" int_fits (Some 0) (n_instrument n) /\
  says d "velocity" int_fits (Some 127) (n_velocity n) /\
  says d "quantized_start_step" num_fits (Some (-1)%Q) (n_qs n) /\ says d "quantized_end_step" num_fits (Some (-1)%Q) (n_qe n) /\
  says d "voice" int_fits (Some 0) (n_voice n) /\ says d "numerator" int_fits (Some 4) (n_num n) /\
  says d "denominator" int_fits (Some 4) (n_den n) /\ says d "is_drum" bool_fits (Some false) (n_drum n).
(** All twelve fields written out. *)
Definition written (n : note) : list (string * jv) :=
  [("pitch", JInt (n_pitch n)); ("start_time", JFloat (n_start n)); ("end_time", JFloat (n_end n)); ("program", JInt (n_program n));
   ("instrument", JInt (n_instrument n)); ("velocity", JInt (n_velocity n)); ("quantized_start_step", JFloat (n_qs n));
   ("quantized_end_step", JFloat (n_qe n)); ("voice", JInt (n_voice n)); ("numerator", JInt (n_num n));
   ("denominator", JInt (n_den n)); ("is_drum", JBool (n_drum n))]%string.
