(** Specification for building graphs in double precision.  [fl x] is the double nearest to [x]. *)
From Coq Require Import QArith Qabs.
From Verif Require Import PyBase M_Note M_Events M_Seq S_Seq M_Chord M_Graph S_Graph M_Float.
Open Scope Z_scope.

(** [a] is the time [s] moved to a multiple of [tol] and rounded to hundredths, every result being the nearest
    double; [s] itself for tolerance 0. *)
Definition moved (tol s a : Q) : Prop :=
  ((tol == 0)%Q /\ a = s) \/
  (~ (tol == 0)%Q /\ exists m k, nearest_even (fl (s / tol)) m /\ nearest_even (fl (inject_Z m * tol) * 100) k /\ (a == fl (inject_Z k / 100))%Q).
(** [key] gives each note the hash of its moved start. *)
Definition time_key_f (e : env) (tol : Q) (key : note -> Z) : Prop :=
  forall n, exists a, moved tol (n_start n) a /\ key n = e_thash e a.
(** The chords of a sequence in the order they are visited. *)
Definition chords_f (e : env) (tol : Q) (s : seq) (c : config) (ws : list (list Z)) : Prop :=
  exists key gs css, time_key_f e tol key /\ groups_of key (c_filter c) (q_notes s) gs /\
    Forall2 (splits (c_size c)) gs css /\ ws = List.concat css.
(** Velocities as in MIDI files. *)
Definition midi_velocities (s : seq) : Prop := forall n, In n (q_notes s) -> 0 <= n_velocity n <= 127.
(** Tracks that yield a graph, and their graphs: as in S_Graph, with these chords. *)
Definition track_ok_f (e : env) (tolf : seq -> Q) (c : config) (s : seq) : Prop :=
  i_drum (q_instr s) = false /\ List.length (q_notes s) <> 1%nat /\ exists ws, ws <> [] /\ chords_f e (tolf s) s c ws.
Definition graph_of_track_f (e : env) (tolf : seq -> Q) (c : config) (s : seq) (g : digraph) : Prop :=
  exists ws, ws <> [] /\ chords_f e (tolf s) s c ws /\ graph_of (map (e_shash e) ws) g.
Inductive graph_of_tracks_f (e : env) (tolf : seq -> Q) (c : config) : list seq -> digraph -> Prop :=
| gf_one s g : graph_of_track_f e tolf c s g -> graph_of_tracks_f e tolf c [s] g
| gf_more l s g ns p ws g' : graph_of_tracks_f e tolf c l g -> nodes_of g = ns ++ [p] -> ws <> [] -> chords_f e (tolf s) s c ws ->
    extends g (p :: map (e_shash e) ws) g' -> graph_of_tracks_f e tolf c (l ++ [s]) g'.
