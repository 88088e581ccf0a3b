(** Specification of what becomes of notes that sound at the same time when they are saved and loaded. *)
From Verif Require Import PyBase M_Ticks M_Load M_Write M_Song S_Write S_Song.
Open Scope Z_scope.

(** ** In ticks *)
(** No key is struck twice at one tick. *)
Definition struck_apart (l : list pnote) : Prop :=
  forall l1 a l2 b l3, l = l1 ++ a :: l2 ++ b :: l3 -> pn_start a = pn_start b -> pn_pitch a <> pn_pitch b.
(** The ticks at which the track of an instrument has an event (its program is at tick 0), and its end. *)
Definition busy (i : winst) (t : Z) : Prop :=
  t = 0 \/ (exists n, In n (w_notes i) /\ (t = pn_start n \/ t = pn_end n)) \/
  (exists b, In b (w_bends i) /\ t = fst b) \/ (exists c, In c (w_ccs i) /\ t = fst (fst c)).
Definition track_end (i : winst) (e : Z) : Prop := busy i (e - 1) /\ forall t, busy i t -> t < e.
(** A tick that ends note [n]: one after its start at which any note starts, or a note of its pitch ends, or
    the track ends. *)
Definition stops (i : winst) (n : pnote) (t : Z) : Prop :=
  pn_start n < t /\
  ((exists m, In m (w_notes i) /\ t = pn_start m) \/ (exists m, In m (w_notes i) /\ pn_pitch m = pn_pitch n /\ t = pn_end m) \/
   track_end i t).
(** Note [n] comes back as [n']: it ends at the first such tick. *)
Definition cut_note (i : winst) (n n' : pnote) : Prop :=
  pn_vel n' = pn_vel n /\ pn_pitch n' = pn_pitch n /\ pn_start n' = pn_start n /\
  stops i n (pn_end n') /\ forall t, stops i n t -> pn_end n' <= t.

(** ** In seconds *)
(** An instrument whose notes last at least to the next tick, no key being struck twice at one tick. *)
Definition sounding (p : pm) (i : sinst) : Prop :=
  (forall n, In n (si_notes i) -> 0 < sn_vel n) /\
  exists ws, Forall2 (on_ticks p) (si_notes i) ws /\ (forall w, In w ws -> pn_start w < pn_end w) /\ struck_apart ws.
(** A time that ends note [n]: on a tick after its start, and the start of any note or the end of one of its pitch. *)
Definition stop_time (p : pm) (ns : list snote) (n : snote) (t : Q) : Prop :=
  (exists m, In m ns /\ (t = sn_start m \/ sn_pitch m = sn_pitch n /\ t = sn_end m)) /\
  exists s k, time_to_tick p (sn_start n) = Ok s /\ time_to_tick p t = Ok k /\ s < k.
(** Every note ends at the first such time. *)
Definition cut_inst (p : pm) (i i' : sinst) : Prop :=
  si_name i' = si_name i /\ si_prog i' = si_prog i /\ si_drum i' = si_drum i /\ si_bends i' = si_bends i /\ si_ccs i' = si_ccs i /\
  Forall2 (fun n n' => sn_vel n' = sn_vel n /\ sn_pitch n' = sn_pitch n /\ sn_start n' = sn_start n /\
    stop_time p (si_notes i) n (sn_end n') /\
    forall t k k', stop_time p (si_notes i) n t -> time_to_tick p t = Ok k -> time_to_tick p (sn_end n') = Ok k' -> k' <= k)
    (si_notes i) (si_notes i').
Definition cut_song (a b : song) : Prop :=
  sg_pm b = sg_pm a /\ sg_meta b = sg_meta a /\ Forall2 (cut_inst (sg_pm a)) (sg_insts a) (sg_insts b).
