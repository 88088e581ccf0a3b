(** Specification for multi-track objects. *)
From Coq Require Import Sorted Permutation.
From Verif Require Import PyBase M_Note M_Events M_Seq M_Seqs.
Open Scope Z_scope.

(** The relative difference is more than 1e-9. *)
Definition far (a b : Q) : Prop := (Qmaxb (Qabsb a) (Qabsb b) < 1000000000 * Qabsb (a - b))%Q.
(** Two times are equal, or clearly different. *)
Definition apart (a b : Q) : Prop := (a == b)%Q \/ ((1 # 1000000) <= Qabsb (a - b))%Q /\ far a b.
Definition times_ok (l : list Q) : Prop :=
  (forall t, In t l -> (0 <= t)%Q) /\ (forall a b, In a l -> In b l -> apart a b).

(** What was added at time zero last, or the default. *)
Fixpoint at_zero {A} (d : A) (adds : list (Q * A)) : A :=
  match adds with
  | [] => d
  | (t, x) :: r => at_zero (if Qeq_bool t 0 then x else d) r
  end.
Definition later {A} (adds : list (Q * A)) : list (Q * A) := filter (fun p => negb (Qeq_bool (fst p) 0)) adds.
Definition entry {A} (s : sig A) : Q * A := (g_time s, g_data s).

(** The list holds one entry at time zero (the last one added there, or the default) followed by all
    additions at other times, sorted by time. *)
Definition lists_signatures {A} (d : A) (adds : list (Q * A)) (l : list (sig A)) : Prop :=
  exists f r, l = f :: r /\ entry f = (g_time f, at_zero d adds) /\ (g_time f == 0)%Q /\
    Permutation (map entry r) (later adds) /\ StronglySorted (fun a b => (g_time a <= g_time b)%Q) l /\
    (forall x, In x r -> (0 < g_time x)%Q).

(** [e] is the last entry of the list before time [t]; no entry at or after [t] precedes it. *)
Definition last_before {A} (l : list (sig A)) (t : Q) (e : sig A) : Prop :=
  exists p q, l = p ++ e :: q /\ Forall (fun x => (g_time x < t)%Q) (p ++ [e]) /\ Forall (fun x => (t <= g_time x)%Q) q.

(** Sequences that may share a track. *)
Definition mergeable (a b : seq) : Prop :=
  q_instr a = q_instr b /\ q_res a = q_res b /\
  forall n, In n (q_notes a ++ q_notes b) -> n_instrument n = i_num (q_instr a).
Definition same_number_mergeable (l : list seq) : Prop :=
  ForallOrdPairs (fun a b => i_num (q_instr a) = i_num (q_instr b) -> mergeable a b) l.

(** Histories without subscript reads. *)
Definition no_subscript (o : ms_op) : Prop := match o with MsGet _ => False | _ => True end.
(** A new, empty sequence for instrument number [i]. *)
Definition fresh_seq (i resolution : Z) (q : seq) : Prop :=
  q_notes q = [] /\ q_pitched q = [] /\ q_drums q = [] /\ q_total q = 0%Q /\ i_num (q_instr q) = i /\
  q_ccs q = [] /\ q_bends q = [] /\ q_res q = resolution.
(** Calls that can register track [i]. *)
Definition registers (i : Z) (o : ms_op) : Prop :=
  match o with MsGet j | MsCreate j _ _ _ | MsGetTrack j _ _ _ => j = i | _ => False end.
(** A successful create_track call for [i]. *)
Definition creates (i : Z) (o : ms_op) : Prop :=
  match o with MsCreate j p _ _ => j = i /\ 0 <= p < 128 | _ => False end.
