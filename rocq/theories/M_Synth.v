(** Model of CustomPrettyMIDI.synthesize and fluidsynth of neural_graph_composer/custom_pretty_midi.py.
    Simplifications: the waveform pretty_midi makes for each instrument is given; it has finite samples.
    [rnd] is the rounding of the arithmetic: M_Float.fl for doubles, the identity for exact numbers.
    A sample None is NaN. *)
From Coq Require Import String.
From Verif Require Import PyBase M_Note.
Open Scope list_scope.
Open Scope Q_scope.

(** custom_pretty_midi.py:961, 993: synthesized[:waveform.shape[0]] += waveform. *)
Fixpoint add_into (rnd : Q -> Q) (acc w : list Q) : list Q :=
  match acc, w with
  | a :: acc', x :: w' => rnd (a + x) :: add_into rnd acc' w'
  | _, _ => acc
  end.
(** np.abs(synthesized).max() of a non-empty array. [custom_pretty_midi.py:963-964, 995-996] *)
Definition loudest (l : list Q) : Q := fold_left (fun m x => if Qltb m (Qabsb x) then Qabsb x else m) l 0.
(** 0 / 0 is NaN. [custom_pretty_midi.py:964, 996] *)
Definition normalize (rnd : Q -> Q) (l : list Q) : list (option Q) :=
  let m := loudest l in map (fun x => if Qeq_bool m 0 then None else Some (rnd (x / m))) l.
(** custom_pretty_midi.py:957-965, 989-997: the sum of the waveforms, as long as the longest, normalized;
    the maximum of an empty array is a ValueError. *)
Definition mix (rnd : Q -> Q) (ws : list (list Q)) : res (list (option Q)) :=
  let n := fold_left (fun m w => Nat.max m (List.length w)) ws 0%nat in
  let synthesized := fold_left (add_into rnd) ws (repeat 0 n) in
  if Nat.eqb n 0 then Err ValueError else Ok (normalize rnd synthesized).
(** custom_pretty_midi.py:939-965: the waveforms of the instruments. *)
Definition synthesize (rnd : Q -> Q) (ws : list (list Q)) : res (list (option Q)) :=
  match ws with [] => Ok [] | _ => mix rnd ws end.
(** custom_pretty_midi.py:967-997: the notes and the waveform of each instrument. *)
Definition fluidsynth {N} (rnd : Q -> Q) (is_ : list (list N * list Q)) : res (list (option Q)) :=
  if Nat.eqb (List.length is_) 0 || forallb (fun i => Nat.eqb (List.length (fst i)) 0) is_ then Ok []
  else mix rnd (map snd is_).
