(** Model of MidiNoteJSONDecoder of neural_graph_composer/midi/midi_note.py.
    Simplifications: the text is well-formed JSON and given as the tree of its values; numbers are exact.
    What the constructor of MidiNote does with arguments of a wrong type is an argument [bad]. *)
From Coq Require Import String.
From Verif Require Import PyBase M_Note M_Chord.
Open Scope string_scope.
Open Scope Z_scope.

(** The values json produces, and a note. [midi_note.py:40-61] *)
Inductive jv : Type :=
| JNull | JBool (b : bool) | JInt (z : Z) | JFloat (q : Q) | JStr (s : string)
| JList (l : list jv) | JObj (o : list (string * jv)) | JNote (n : note).

(** json builds a dictionary from the members in order; a repeated key overwrites. [midi_note.py:61] *)
Definition dict_of (l : list (string * jv)) : list (string * jv) :=
  fold_left (fun d kv => dict_set String.eqb (fst kv) (snd kv) d) l [].

(** The parameters of MidiNote. [midi_note.py:76-90] *)
Definition note_keys : list string :=
  ["pitch"; "start_time"; "end_time"; "program"; "instrument"; "velocity"; "quantized_start_step"; "quantized_end_step";
   "voice"; "numerator"; "denominator"; "is_drum"]%string.
(** Arguments of the expected type. [midi_note.py:76-90] *)
Definition as_int (v : jv) : option Z := match v with JInt z => Some z | _ => None end.
(** [midi_note.py:76-90] *)
Definition as_num (v : jv) : option Q := match v with JInt z => Some (inject_Z z) | JFloat q => Some q | _ => None end.
(** [midi_note.py:76-90] *)
Definition as_bool (v : jv) : option bool := match v with JBool b => Some b | _ => None end.
(** A keyword argument or its default; None if it is of another type. [midi_note.py:76-90] *)
Definition kwarg {A} (conv : jv -> option A) (dflt : A) (k : string) (d : list (string * jv)) : option A :=
  match dict_get String.eqb k d with None => Some dflt | Some v => conv v end.
(** MidiNote with the arguments d: unknown or missing arguments are a TypeError. [midi_note.py:48, 76-173] *)
Definition make_note (bad : list (string * jv) -> res jv) (d : list (string * jv)) : res jv :=
  if existsb (fun kv => negb (existsb (String.eqb (fst kv)) note_keys)) d then Err TypeError
  else match dict_get String.eqb "pitch" d, dict_get String.eqb "start_time" d, dict_get String.eqb "end_time" d with
  | Some p, Some s, Some e =>
    match as_int p, as_num s, as_num e, kwarg as_int 0 "program" d, kwarg as_int 0 "instrument" d, kwarg as_int 127 "velocity" d with
    | Some p, Some s, Some e, Some pr, Some ins, Some vel =>
      match kwarg as_num (-1)%Q "quantized_start_step" d, kwarg as_num (-1)%Q "quantized_end_step" d, kwarg as_int 0 "voice" d,
            kwarg as_int 4 "numerator" d, kwarg as_int 4 "denominator" d, kwarg as_bool false "is_drum" d with
      | Some qs, Some qe, Some vo, Some nu, Some de, Some dr =>
        bind (n_new (mkN p vel pr ins vo nu de dr s e qs qe)) (fun n => Ok (JNote n))
      | _, _, _, _, _, _ => bad d
      end
    | _, _, _, _, _, _ => bad d
    end
  | _, _, _ => Err TypeError
  end.
(** midi_note.py:40-50 object_hook: the value under the marker does not matter. *)
Definition object_hook (bad : list (string * jv) -> res jv) (d : list (string * jv)) : res jv :=
  match dict_get String.eqb "__MidiNote__" d with
  | Some _ => match dict_get String.eqb "data" d with
              | None => Err KeyError
              | Some (JObj o) => make_note bad o
              | Some _ => Err TypeError
              end
  | None => Ok (JObj d)
  end.
(** midi_note.py:52-61 decode: json calls the hook for every object, inner ones first, in order. *)
Fixpoint decode (bad : list (string * jv) -> res jv) (v : jv) : res jv :=
  match v with
  | JList l =>
    bind ((fix go l := match l with [] => Ok [] | x :: r => bind (decode bad x) (fun y => bind (go r) (fun s => Ok (y :: s))) end) l)
      (fun l' => Ok (JList l'))
  | JObj o =>
    bind ((fix go o := match o with [] => Ok [] | (k, x) :: r => bind (decode bad x) (fun y => bind (go r) (fun s => Ok ((k, y) :: s))) end) o)
      (fun o' => object_hook bad (dict_of o'))
  | _ => Ok v
  end.
