(** Model of the piano roll, chroma and pitch class statistics of
    neural_graph_composer/custom_pretty_midi.py:815-937.  What each instrument contributes (a matrix
    or vector computed by pretty_midi) is an argument; entries are exact rationals instead of floats. *)
From Verif Require Import PyBase.
Open Scope Q_scope.

(** A two-dimensional array: shape[1] and the rows.  custom_pretty_midi.py:839-851 *)
Record mat : Type := mkM { m_cols : nat; m_rows : list (list Q) }.
(** np.zeros((r, c)).  custom_pretty_midi.py:839, 847 *)
Definition zeros (r c : nat) : mat := mkM c (repeat (repeat 0 c) r).
(** row[:len(v)] += v for len(v) <= len(row).  custom_pretty_midi.py:850 *)
Fixpoint add_prefix (row v : list Q) : list Q :=
  match row, v with
  | x :: row', y :: v' => (x + y) :: add_prefix row' v'
  | _, _ => row
  end.
(** a[:, :w] += b, row by row.  custom_pretty_midi.py:850 *)
Fixpoint add_rows (a b : list (list Q)) : list (list Q) :=
  match a, b with
  | x :: a', y :: b' => add_prefix x y :: add_rows a' b'
  | _, _ => a
  end.
(** custom_pretty_midi.py:838-851 get_piano_roll; [rolls] are the piano rolls of the instruments. *)
Definition get_piano_roll (rolls : list mat) : mat :=
  match rolls with
  | [] => zeros 128 0
  | _ => let w := fold_right Nat.max 0%nat (map m_cols rolls) in
         mkM w (fold_left (fun acc r => add_rows acc (m_rows r)) rolls (m_rows (zeros 128 w)))
  end.

(** np.sum of a vector.  custom_pretty_midi.py:877, 905 *)
Definition total (l : list Q) : Q := fold_right Qplus 0 l.
(** x /= (sum + (sum == 0)).  custom_pretty_midi.py:876-877, 904-905 *)
Definition normalise (l : list Q) : list Q :=
  let s := total l in
  let d := s + (if Qeq_bool s 0 then 1 else 0) in
  map (fun x => x / d) l.
(** custom_pretty_midi.py:870-879 get_pitch_class_histogram; [hs]: the instruments' histograms, of 12 entries. *)
Definition get_pitch_class_histogram (hs : list (list Q)) (normalize : bool) : list Q :=
  let h := fold_left add_prefix hs (repeat 0 12) in
  if normalize then normalise h else h.
(** custom_pretty_midi.py:899-907 get_pitch_class_transition_matrix; [ms]: the instruments' 12 x 12 matrices
    (pretty_midi normalises each of them too when [normalize] is set). *)
Definition get_pitch_class_transition_matrix (ms : list (list (list Q))) (normalize : bool) : list (list Q) :=
  let m := fold_left add_rows ms (repeat (repeat 0 12) 12) in
  if normalize then
    let s := total (map total m) in
    let d := s + (if Qeq_bool s 0 then 1 else 0) in
    map (map (fun x => x / d)) m
  else m.

(** a[note::12].  custom_pretty_midi.py:936 *)
Fixpoint every12 {A} (l : list A) (k : nat) : list A :=
  match l with
  | [] => []
  | x :: r => match k with O => x :: every12 r 11 | S k' => every12 r k' end
  end.
(** np.sum(rows, axis=0) of [w] columns.  custom_pretty_midi.py:936 *)
Definition column_sums (w : nat) (rows : list (list Q)) : list Q := fold_left add_prefix rows (repeat 0 w).
(** custom_pretty_midi.py:930-937 get_chroma. *)
Definition get_chroma (rolls : list mat) : mat :=
  let p := get_piano_roll rolls in
  mkM (m_cols p) (map (fun note => column_sums (m_cols p) (every12 (m_rows p) note)) (seq 0 12)).
