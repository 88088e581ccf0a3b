(** Specification vocabulary for writing. *)
From Coq Require Import Sorted.
From Verif Require Import PyBase M_Load S_Load M_Write.
Open Scope Z_scope.

(** MIDI ranges. *)
Definition midi_note (n : pnote) : Prop := 0 <= pn_pitch n <= 127 /\ 0 < pn_vel n <= 127 /\ 0 <= pn_start n <= pn_end n.
Definition midi_inst (i : winst) : Prop :=
  (forall n, In n (w_notes i) -> midi_note n) /\
  (forall b, In b (w_bends i) -> 0 <= fst b /\ -8192 <= snd b <= 8191) /\
  (forall c, In c (w_ccs i) -> 0 <= fst (fst c) /\ 0 <= snd (fst c) <= 127 /\ 0 <= snd c <= 127).

(** The documented order of the events of a track: by tick; at one tick program changes, then
    pitch bends by value, then control changes by number and value, then note-ons by pitch and
    velocity (velocity 0 is a release), then the end of the track. *)
Definition kind (m : msg) : Z :=
  match m with MProg _ _ => 1 | MBend _ _ => 2 | MCC _ _ _ => 3 | MOff _ _ => 4 | MOn _ _ _ => 5 | MEnd => 6 | _ => 0 end.
Definition par1 (m : msg) : Z := match m with MBend _ p => p | MCC _ c _ => c | MOff _ n => n | MOn _ n _ => n | _ => 0 end.
Definition par2 (m : msg) : Z := match m with MCC _ _ v => v | MOn _ _ v => v | _ => 0 end.
Definition in_order (a b : event) : Prop :=
  fst a < fst b \/ fst a = fst b /\
    (kind (snd a) < kind (snd b) \/ kind (snd a) = kind (snd b) /\
      (par1 (snd a) < par1 (snd b) \/ par1 (snd a) = par1 (snd b) /\ par2 (snd a) <= par2 (snd b))).

(** Notes that can be told apart in a track: they last, those struck together have different
    pitches, and none sounds on when a later one is struck. *)
Definition sequential (l : list pnote) : Prop :=
  (forall n, In n l -> pn_start n < pn_end n) /\
  (forall l1 a l2 b l3, l = l1 ++ a :: l2 ++ b :: l3 -> pn_start a = pn_start b -> pn_pitch a <> pn_pitch b) /\
  (forall a b, In a l -> In b l -> pn_start a < pn_start b -> pn_end a <= pn_start b).
