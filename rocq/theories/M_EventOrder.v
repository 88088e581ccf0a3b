(** Model of the comparisons of MIDI events (midi_control_change.py, midi_pitch_bend.py,
    midi_key_signature.py) and of the remaining tempo conversions of midi_time_signature.py. *)
From Verif Require Import PyBase M_Events.
Open Scope Z_scope.

(** ** MidiBaseControlChange *)
(** midi_control_change.py:24-49 attributes. *)
Record base_cc : Type := mkBC { bc_number : Z; bc_description : string; bc_min : Z; bc_max : Z; bc_onoff : bool }.
(** midi_control_change.py:41-44: f"{description} {cc_number}" when it is "Undefined"; [str] is str of an int. *)
Definition bc_new (str : Z -> string) (number : Z) (description : string) (lo hi : Z) (onoff : bool) : base_cc :=
  mkBC number (if String.eqb description "Undefined"%string then String.append "Undefined "%string (str number) else description) lo hi onoff.
(** midi_control_change.py:51-52 __lt__. *)
Definition bc_ltb (a b : base_cc) : bool := bc_number a <? bc_number b.
(** midi_control_change.py:54-55 __ne__: the numbers only. *)
Definition bc_neb (a b : base_cc) : bool := negb (bc_number a =? bc_number b).
(** midi_control_change.py:61-64 __eq__: number and description. *)
Definition bc_eqb (a b : base_cc) : bool := (bc_number a =? bc_number b) && String.eqb (bc_description a) (bc_description b).

(** midi_control_change.py:245-253 __ne__ of MidiControlChange. *)
Definition cc_neb (a b : cc) : bool := negb (cc_eqb a b).

(** ** MidiPitchBend *)
(** midi_pitch_bend.py:75-82 __lt__: by amount. *)
Definition b_ltb (a b : bend) : bool := b_amount a <? b_amount b.
(** midi_pitch_bend.py:84-98 __eq__; None == None, None != a number. *)
Definition b_eqb (a b : bend) : bool :=
  (b_amount a =? b_amount b) && (b_program a =? b_program b) && (b_instrument a =? b_instrument b) &&
  match b_time a, b_time b with Some x, Some y => Qeq_bool x y | None, None => true | _, _ => false end &&
  Bool.eqb (b_drum a) (b_drum b).

(** ** MidiKeySignature *)
(** midi_key_signature.py:12-17 KeySignatureType. *)
Inductive mode : Type := MajorMode | MinorMode.
(** midi_key_signature.py:52-56 attributes. *)
Record keysig : Type := mkK { k_time : Q; k_key : Z; k_mode : mode; k_seq : Z }.
(** midi_key_signature.py:58-70 major_or_minor. *)
Definition major_or_minor (m : Z) : res mode :=
  if m =? 0 then Ok MajorMode else if m =? 1 then Ok MinorMode else Err ValueError.
(** midi_key_signature.py:24-56 __init__. *)
Definition k_new (time : Q) (key m : Z) : res keysig := bind (major_or_minor m) (fun md => Ok (mkK time key md 0)).
(** midi_key_signature.py:72-81 __lt__. *)
Definition k_ltb (a b : keysig) : bool :=
  if qclose_def (k_time a) (k_time b) then k_seq a <? k_seq b else Qltb (k_time a) (k_time b).

(** ** MidiTempoSignature *)
(** midi_time_signature.py:152-156 __lt__. *)
Definition t_ltb (a b : tempo) : bool :=
  if qclose_def (t_time a) (t_time b) then t_seq a <? t_seq b else Qltb (t_time a) (t_time b).
(** midi_time_signature.py:277-286 __lt__ of MidiTimeSignature. *)
Definition s_ltb (a b : tsig) : bool :=
  if qclose_def (s_time a) (s_time b) then s_seq a <? s_seq b else Qltb (s_time a) (s_time b).
(** midi_time_signature.py:99-112 ppq_to_qpm. *)
Definition ppq_to_qpm (ppq us ticks : Q) : res Q :=
  if Qeq_bool (ticks * us * (1 # 1000000))%Q 0 then Err ZeroDivisionError
  else let tick_duration := (1 / (ticks * us * (1 # 1000000)))%Q in
       let quarter := (tick_duration * ppq)%Q in
       if Qeq_bool quarter 0 then Err ZeroDivisionError
       else let qpm := (60 / quarter)%Q in Ok (qpm / (ticks * us * (1 # 1000000)))%Q.
