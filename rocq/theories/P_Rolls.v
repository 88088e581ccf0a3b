(** Properties C143-C146: piano roll, pitch class statistics and chroma. *)
From Verif Require Import PyBase M_Rolls S_Rolls L_Rolls.
From Coq Require Import Permutation.
Open Scope Q_scope.

(** C143: the piano roll of a piece has 128 rows and as many columns as its longest instrument; each
    entry is the sum of the instruments' entries (an instrument that has ended adds nothing). *)
Theorem C143_piano_roll : forall rolls, Forall roll_ok rolls ->
  let p := get_piano_roll rolls in
  roll_ok p /\ m_cols p = fold_right Nat.max 0%nat (map m_cols rolls) /\
  forall i j, entry (m_rows p) i j == sum_of (fun r => entry (m_rows r) i j) rolls.
Proof. exact piano_roll. Qed.
Print Assumptions C143_piano_roll.
(** C143: the order of the instruments does not matter. *)
Theorem C143_order : forall r1 r2, Forall roll_ok r1 -> Permutation r1 r2 ->
  m_cols (get_piano_roll r1) = m_cols (get_piano_roll r2) /\
  forall i j, entry (m_rows (get_piano_roll r1)) i j == entry (m_rows (get_piano_roll r2)) i j.
Proof. exact piano_roll_order. Qed.
Print Assumptions C143_order.
Example C143_case : let a := mkM 1 (repeat [64] 128) in let b := mkM 2 (repeat [1; 90] 128) in
  Forall roll_ok [a; b] /\ m_cols (get_piano_roll [a; b]) = 2%nat /\
  entry (m_rows (get_piano_roll [a; b])) 60 0 == 65 /\ entry (m_rows (get_piano_roll [a; b])) 60 1 == 90.
Proof.
  split; [|repeat split; vm_compute; reflexivity].
  repeat constructor; try (vm_compute; reflexivity); apply Forall_forall; intros x H; apply repeat_spec in H; subst; reflexivity.
Qed.

(** C144: the pitch class histogram is the sum of the instruments' histograms; normalised it sums to 1
    and keeps the proportions, and a histogram that sums to 0 is left as it is (no division by 0). *)
Theorem C144_histogram : forall hs, Forall (fun h => List.length h = 12%nat) hs ->
  let h := get_pitch_class_histogram hs false in let n := get_pitch_class_histogram hs true in
  List.length h = 12%nat /\ List.length n = 12%nat /\ (forall j, nth j h 0 == sum_of (fun x => nth j x 0) hs) /\
  (~ total h == 0 -> total n == 1 /\ forall j, nth j n 0 * total h == nth j h 0) /\
  (total h == 0 -> forall j, nth j n 0 == nth j h 0).
Proof. exact histogram. Qed.
Print Assumptions C144_histogram.
Example C144_case : let h := [1; 0; 0; 0; 2; 0; 0; 0; 0; 0; 0; 0] in
  nth 4 (get_pitch_class_histogram [h; h] true) 0 == 2 # 3 /\ nth 4 (get_pitch_class_histogram [] true) 0 == 0.
Proof. split; vm_compute; reflexivity. Qed.

(** C145: the same for the 12 x 12 transition matrix. *)
Theorem C145_transitions : forall ms, Forall (shape 12 12) ms ->
  let m := get_pitch_class_transition_matrix ms false in let n := get_pitch_class_transition_matrix ms true in
  let all x := sum_below 12 (fun i => sum_below 12 (fun j => entry x i j)) in
  shape 12 12 m /\ shape 12 12 n /\ (forall i j, entry m i j == sum_of (fun x => entry x i j) ms) /\
  all m == sum_of all ms /\
  (~ all m == 0 -> all n == 1 /\ forall i j, entry n i j * all m == entry m i j) /\
  (all m == 0 -> forall i j, entry n i j == entry m i j).
Proof. exact transition. Qed.
Print Assumptions C145_transitions.
(** C145: when the instruments' matrices are already normalised (as they are with normalize=True) the
    result is their mean: every instrument weighs the same, however many transitions it has. *)
Theorem C145_mean : forall ms, Forall (shape 12 12) ms -> ms <> [] ->
  Forall (fun x => sum_below 12 (fun i => sum_below 12 (fun j => entry x i j)) == 1) ms ->
  forall i j, entry (get_pitch_class_transition_matrix ms true) i j * inject_Z (Z.of_nat (List.length ms)) == sum_of (fun x => entry x i j) ms.
Proof. exact transition_mean. Qed.
Print Assumptions C145_mean.
Example C145_case : let a := (1 :: repeat 0 11) :: repeat (repeat 0 12) 11 in let b := repeat (repeat 0 12) 11 ++ [1 :: repeat 0 11] in
  Forall (shape 12 12) [a; b] /\ entry (get_pitch_class_transition_matrix [a; b] true) 11 0 == 1 # 2.
Proof. split; [repeat constructor|vm_compute; reflexivity]. Qed.

(** C146: a chroma row is the sum of the pitches of that class, so every column of the chroma sums to
    the column of the piano roll. *)
Theorem C146_chroma : forall rolls, Forall roll_ok rolls ->
  let p := get_piano_roll rolls in let c := get_chroma rolls in
  m_cols c = m_cols p /\ shape 12 (m_cols p) (m_rows c) /\
  (forall k j, (k < 12)%nat -> entry (m_rows c) k j == sum_below 128 (fun i => if (i mod 12 =? k)%nat then entry (m_rows p) i j else 0)) /\
  (forall j, sum_below 12 (fun k => entry (m_rows c) k j) == sum_below 128 (fun i => entry (m_rows p) i j)).
Proof. exact chroma. Qed.
Print Assumptions C146_chroma.
Example C146_case : let a := mkM 1 (repeat [1] 128) in
  entry (m_rows (get_chroma [a])) 7 0 == 11 /\ entry (m_rows (get_chroma [a])) 8 0 == 10.
Proof. split; vm_compute; reflexivity. Qed.
