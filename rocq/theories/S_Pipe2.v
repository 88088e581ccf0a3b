(** Specification for the pitch bends and control changes of a file that was read. *)
From Verif Require Import PyBase M_Events M_Ticks M_Load S_Load M_Song M_Pipe S_Pipe.
Open Scope Z_scope.

(** No note of the file that is kept ends after the time [t]. *)
Definition after_all (clock : Z -> Q) (file : list ftrack) (t : Q) : Prop :=
  forall k l n, part file k l -> In n l -> lasting clock n -> (clock (pn_end n) <= t)%Q.
(** A pitch bend (tick, amount) of a file and the one of a track that stands for it. *)
Definition bend_at (clock : Z -> Q) (a : Z * Z) (b : bend) : Prop :=
  b_amount b = snd a /\ exists t, b_time b = Some t /\ (t == clock (fst a))%Q.
(** A control change (tick, number, value). *)
Definition cc_at (clock : Z -> Q) (a : Z * Z * Z) (c : cc) : Prop :=
  cc_number c = snd (fst a) /\ cc_value c = snd a /\ (cc_time c == clock (fst (fst a)))%Q.
(** All programs of a channel share its controllers: one comes before the first note of the channel, or the
    program does not change once a note has been struck. *)
Definition shared (ch : Z) (evs : list event) : Prop := exists l1 l2, evs = l1 ++ l2 /\
  (forall e, In e l1 -> ~ starts_note ch e) /\ ((exists e, In e l1 /\ is_ctrl ch e) \/ (forall e, In e l2 -> ~ is_prog ch e)).
