(** Model of the velocity helpers of ngc_small_graph.py (rescale_velocities, scale_relative_velocities), in double
    precision (M_Float).  Simplifications: velocities are ints and so are the targets, products stay within 64
    bits; [nan] is the int that numpy makes of a NaN, which depends on the platform. *)
From Coq Require Import Qround.
From Verif Require Import PyBase M_Float.
Open Scope Z_scope.

(** np.min and np.max of a list that is not empty. [ngc_small_graph.py:379-381] *)
Definition min_of (x : Z) (l : list Z) : Z := fold_left Z.min l x.
Definition max_of (x : Z) (l : list Z) : Z := fold_left Z.max l x.
(** np.clip(..., 0, 127).astype(int); what is left is not negative. [ngc_small_graph.py:388, 419] *)
Definition clip_int (x : Q) : Z := Qfloor (if Qltb x 0 then 0 else if Qltb 127 x then 127 else x).
(** ngc_small_graph.py:376-390 rescale_velocities (the second definition, which hides the first) *)
Definition rescale_velocities (nan : Z) (velocities : list Z) (tmin tmax : Z) : res (list Z) :=
  match velocities with
  | [] => Err ValueError
  | x :: r =>
    let mn := min_of x r in let mx := max_of x r in
    Ok (map (fun v => if mx - mn =? 0 then nan
                      else clip_int (fl (fl (inject_Z ((v - mn) * (tmax - tmin)) / inject_Z (mx - mn)) + inject_Z tmin)))
            velocities)
  end.
(** ngc_small_graph.py:399-421 scale_relative_velocities; a mean of 0 gives 0/0, or inf*0.  The mean of no
    velocities is NaN, but there is nothing to scale. *)
Definition scale_relative_velocities (nan : Z) (velocities : list Z) (factor : Q) : list Z :=
  let avg := fl (inject_Z (fold_left Z.add velocities 0) / inject_Z (Z.of_nat (List.length velocities))) in
  map (fun v => if Qeq_bool avg 0 then nan
                else clip_int (fl (fl (fl (inject_Z v / avg) * factor) * avg))) velocities.
