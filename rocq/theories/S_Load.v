(** Specification vocabulary: which notes the events of one track denote. *)
From Coq Require Import Sorted.
From Verif Require Import PyBase M_Load.
Open Scope Z_scope.

(** Absolute ticks ascend. *)
Definition ascending (evs : list event) : Prop := StronglySorted (fun a b => fst a <= fst b) evs.
(** No channel and pitch is struck twice at one tick. *)
Definition no_double (evs : list event) : Prop :=
  forall l1 l2 l3 t ch n v w, evs = l1 ++ (t, MOn ch n v) :: l2 ++ (t, MOn ch n w) :: l3 -> 0 < v -> 0 < w -> False.

(** Where a note struck at tick [s] ends: the first following event that is a release of its pitch
    at another tick, ANY new note-on at a later tick, or the end of the track.  The answer is the
    tick and the channel's program at that moment; [pr] is the program at the start. *)
Fixpoint ending (pr ch n s : Z) (evs : list event) : option (Z * Z) :=
  match evs with
  | [] => None
  | (t, m) :: r =>
    match m with
    | MProg c p => ending (if ch =? c then p else pr) ch n s r
    | MOn c k v =>
      if 0 <? v then if s <? t then Some (t, pr) else ending pr ch n s r
      else if (c =? ch) && (k =? n) && negb (t =? s) then Some (t, pr) else ending pr ch n s r
    | MOff c k => if (c =? ch) && (k =? n) && negb (t =? s) then Some (t, pr) else ending pr ch n s r
    | MEnd => Some (t, pr)
    | _ => ending pr ch n s r
    end
  end.
(** The notes of a track as ((program, channel), note); [prog] are the current programs. *)
Fixpoint track_notes (prog : Z -> Z) (evs : list event) : list ((Z * Z) * pnote) :=
  match evs with
  | [] => []
  | (t, m) :: r =>
    match m with
    | MProg c p => track_notes (fun x => if x =? c then p else prog x) r
    | MOn ch n v =>
      (if 0 <? v then match ending (prog ch) ch n t r with
                      | Some (e, pr) => [((pr, ch), mkP v n t e)]
                      | None => [] end
       else []) ++ track_notes prog r
    | _ => track_notes prog r
    end
  end.
(** The notes of one program and channel. *)
Definition of_inst (pr ch : Z) (l : list ((Z * Z) * pnote)) : list pnote :=
  map snd (filter (fun x => pair_eqb (fst x) (pr, ch)) l).

(** The pitch bends and control changes of channel [ch] among the events of a track. *)
Fixpoint channel_bends (ch : Z) (evs : list event) : list (Z * Z) :=
  match evs with
  | [] => []
  | (t, MBend c p) :: r => (if c =? ch then [(t, p)] else []) ++ channel_bends ch r
  | _ :: r => channel_bends ch r
  end.
Fixpoint channel_ccs (ch : Z) (evs : list event) : list (Z * Z * Z) :=
  match evs with
  | [] => []
  | (t, MCC c n v) :: r => (if c =? ch then [(t, n, v)] else []) ++ channel_ccs ch r
  | _ :: r => channel_ccs ch r
  end.
(** Events of channel [ch]: note-ons that start a note, controllers, program changes. *)
Definition starts_note (ch : Z) (e : event) : Prop := exists n v, snd e = MOn ch n v /\ 0 < v.
Definition is_ctrl (ch : Z) (e : event) : Prop := (exists p, snd e = MBend ch p) \/ (exists n v, snd e = MCC ch n v).
Definition is_prog (ch : Z) (e : event) : Prop := exists p, snd e = MProg ch p.
(** The last track name given by some events of a track ("" when there is none). *)
Definition latest_name (evs : list event) : string :=
  fold_left (fun n e => match snd e with MName s => s | _ => n end) evs EmptyString.
