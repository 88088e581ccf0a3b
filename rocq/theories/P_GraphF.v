(** Properties C202-C203: building graphs in double precision.  [tolf s] is the automatic tolerance that numpy
    computes for the sequence [s]; the theorems hold for any tolerances >= 0. *)
From Coq Require Import Sorted Permutation QArith Qabs Lia Lqa.
From Verif Require Import PyBase L_Base M_Note M_Events M_Seq S_Seq M_Chord M_Graph S_Graph M_Float L_Float M_Snap S_Snap L_Snap M_GraphF S_GraphF L_Graph2 L_Graph5 L_GraphF P_Graph P_Snap.
Open Scope Z_scope.

(** C202: a graph built from a sequence is the graph of its chords, visited one after the other. *)
Theorem C202_fresh : forall e tolf b s c g' b', env_ok e -> midi_velocities s -> build_sequence_f e tolf b s c None = (Ok g', b') ->
  exists ws, chords_f e (tolf s) s c ws /\ graph_of (map (e_shash e) ws) g' /\ graph_ok g' /\
    (forall x y, In x (nodes_of g') -> In y (nodes_of g') -> connected g' x y).
Proof.
  intros e tolf b s c g' b' EO V H. rewrite sequence_eq in H by auto. destruct (build_fresh_f e tolf b s c g' b' EO H) as [ws [A [B [C _]]]].
  exists ws. split; [exact A|]. split; [exact B|]. split; [exact C|]. apply (graph_connected _ _ C B).
Qed.
Print Assumptions C202_fresh.
(** C202: building into an existing graph continues from the node added last. *)
Theorem C202_onto : forall e tolf b s c g ns p g' b', env_ok e -> midi_velocities s -> graph_ok g -> nodes_of g = ns ++ [p] -> build_sequence_f e tolf b s c (Some g) = (Ok g', b') ->
  exists ws, chords_f e (tolf s) s c ws /\ extends g (p :: map (e_shash e) ws) g' /\ graph_ok g'.
Proof.
  intros e tolf b s c g ns p g' b' EO V G N H. rewrite sequence_eq in H by auto. destruct (build_onto_f e tolf b s c g ns p g' b' EO G N H) as [ws [A [B [C _]]]]. eauto.
Qed.
Print Assumptions C202_onto.
(** C202: every node carries the feature, label and hash of a chord, or is a node of the graph given, unchanged.  The velocities
    in the features are those of exact arithmetic. *)
Theorem C202_attributes : forall e tolf b s c g g' b', env_ok e -> midi_velocities s -> build_sequence_f e tolf b s c g = (Ok g', b') ->
  exists key gs, time_key_f e (tolf s) key /\ groups_of key (c_filter c) (q_notes s) gs /\
    Forall (fun n => node_from e c gs n \/ match g with Some g0 => In n (g_nodes g0) | None => False end) (g_nodes g').
Proof. intros e tolf b s c g g' b' EO V H. rewrite sequence_eq in H by auto. exact (build_attrs_f e tolf b s c g g' b' EO H). Qed.
Print Assumptions C202_attributes.
Theorem C202_velocities : forall v lo hi, In lo v -> In hi v -> (forall x, In x v -> lo <= x <= hi) -> lo < hi -> 0 <= lo -> hi <= 127 ->
  rescale_f v = Ok (map (fun x => 32 + (x - lo) * 95 / (hi - lo)) v).
Proof.
  intros v lo hi L H B D A C. rewrite rescale_f_eq; [apply C49_linear; auto|]. intros x X. apply B in X. lia.
Qed.
Print Assumptions C202_velocities.
Theorem C202_single_velocity : forall x, 0 <= x <= 127 -> exists m, rescale_f [x] = Ok [m] /\ nearest_even (32 + inject_Z x * (95 # 127))%Q m.
Proof. intros x X. rewrite rescale_f_eq; [apply C49_single; exact X|]. intros y [<- | []]. exact X. Qed.
Print Assumptions C202_single_velocity.
(** C202: building succeeds for acceptable arguments. *)
Theorem C202_succeeds : forall e tolf b s c g, (forall s, 0 <= tolf s)%Q -> env_ok e -> midi_velocities s -> valid_config c ->
  (forall n, In n (q_notes s) -> sounding n -> (0 <= n_start n)%Q /\ good_pitch c (n_pitch n)) ->
  (match g with Some g => g_nodes g <> [] | None => True end) -> exists g' b', build_sequence_f e tolf b s c g = (Ok g', b').
Proof. intros e tolf b s c g TP EO MV V N G. rewrite sequence_eq by auto. exact (build_total_f e tolf b s c g TP EO V N G). Qed.
Print Assumptions C202_succeeds.
(** C202: if the starts are clear of the borders between two multiples, the graph is the one of exact arithmetic, whose properties
    are C44-C51. *)
Theorem C202_agrees : forall e tolf b s c g, env_ok e -> midi_velocities s -> tolf s = compute_tolerance s 95 ->
  (forall n, In n (q_notes s) -> sounding n -> is_double (n_start n) /\ ((0 < tolf s)%Q -> clear (tolf s) (n_start n))) ->
  build_sequence_f e tolf b s c g = build_sequence (in_doubles e) b s c g /\ env_ok (in_doubles e).
Proof.
  intros e tolf b s c g EO V T H. rewrite T in H. destruct (C200_agrees e s (c_tolerance c) (c_filter c) EO H) as [A B]. split; [|exact B]. cbv zeta in A.
  rewrite sequence_eq by auto. unfold build_sequence_g, build_sequence. rewrite T, A. reflexivity.
Qed.
Print Assumptions C202_agrees.

(** C203: building per instrument stores one graph per non-drum track with other than one note and at least one chord, in order,
    each the graph of that track alone. *)
Theorem C203_per_instrument : forall e tolf conv b l c b', env_ok e -> Forall midi_velocities l -> build_f e tolf conv b l c true = (Ok tt, b') ->
  exists ts gs, selects (track_ok_f e tolf c) l ts /\ Forall2 (graph_of_track_f e tolf c) ts gs /\ Forall graph_ok gs /\
    b_pyg b' = b_pyg b ++ map (fun g => mkP g None None) gs /\ b_sub b' = b_sub b ++ gs.
Proof. intros e tolf conv b l c b' EO V H. rewrite build_eq in H by auto. exact (build_per_instrument_f e tolf conv b l c b' EO H). Qed.
Print Assumptions C203_per_instrument.
(** C203: otherwise one graph holds all of them, each track's walk continuing from the node added last; no graph is stored if no
    track qualifies. *)
Theorem C203_whole : forall e tolf conv b l c b', env_ok e -> Forall midi_velocities l -> build_f e tolf conv b l c false = (Ok tt, b') ->
  exists ts, selects (track_ok_f e tolf c) l ts /\
    ((ts = [] /\ b_pyg b' = b_pyg b /\ b_sub b' = b_sub b) \/
     (exists g, graph_of_tracks_f e tolf c ts g /\ graph_ok g /\ b_pyg b' = b_pyg b ++ [mkP g None None] /\ b_sub b' = b_sub b ++ [g])).
Proof. intros e tolf conv b l c b' EO V H. rewrite build_eq in H by auto. exact (build_whole_f e tolf conv b l c b' EO H). Qed.
Print Assumptions C203_whole.
(** C203: building succeeds if the conversion does and the tracks are acceptable. *)
Theorem C203_succeeds : forall e tolf conv b l c per, (forall s, 0 <= tolf s)%Q -> env_ok e -> Forall midi_velocities l -> valid_config c -> (forall g, conv g = None) ->
  (forall s n, In s l -> In n (q_notes s) -> sounding n -> (0 <= n_start n)%Q /\ good_pitch c (n_pitch n)) -> exists b', build_f e tolf conv b l c per = (Ok tt, b').
Proof.
  intros e tolf conv b l c per TP EO MV V CV H. rewrite build_eq by auto. apply build_all_total_f; auto. apply Forall_forall. intros s I n. apply H. exact I.
Qed.
Print Assumptions C203_succeeds.

(** A sequence of five notes; the tolerance is a quarter second.  The hash of a quarter is
    greater than that of 1, so its chord comes last. *)
Definition s202 : seq := sq [nt 60 100 0; nt 64 90 (fl (1 # 10)); nt 67 80 (fl (35 # 100)); nt 60 70 1; nt 64 60 (fl (11 # 10))].
Definition c202 : config := mkC 12 1 TensorAttr false 0 true.
Example s202_ok : midi_velocities s202.
Proof. intros n I. unfold s202, sq, nt in I. cbn [q_notes In] in I. repeat (destruct I as [<-|I]; [cbn [n_velocity]; lia|]). destruct I. Qed.
Example C202_case : midi_velocities s202 /\ env_ok e_ex /\
  match fst (build_sequence_f e_ex (fun _ => 1 # 4) b_new s202 c202 None) with
  | Ok g => nodes_of g = [2 ^ 60 + 2 ^ 64; 2 ^ 67] /\ weight g (2 ^ 60 + 2 ^ 64) (2 ^ 67) = 1 /\ weight g (2 ^ 60 + 2 ^ 64) (2 ^ 60 + 2 ^ 64) = 2
  | Err _ => False
  end.
Proof. split; [exact s202_ok|]. split; [exact e_ex_ok|]. vm_compute. auto. Qed.
Example C203_case : Forall midi_velocities [s202; s202] /\
  match build_f e_ex (fun _ => 1 # 4) (fun _ => None) b_new [s202; s202] c202 false with
  | (Ok _, b) => match b_sub b with [g] => weight g (2 ^ 60 + 2 ^ 64) (2 ^ 67) = 3 /\ weight g (2 ^ 60 + 2 ^ 64) (2 ^ 60 + 2 ^ 64) = 3 | _ => False end
  | _ => False
  end.
Proof. split; [apply Forall_cons; [exact s202_ok|apply Forall_cons; [exact s202_ok|apply Forall_nil]]|]. vm_compute. auto. Qed.
