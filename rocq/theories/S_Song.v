(** Specification for saving and loading a whole piece. *)
From Coq Require Import Sorted Permutation Qabs.
From Verif Require Import PyBase M_Ticks M_Load M_Write S_Ticks S_Write M_Meta M_Song.
Open Scope Z_scope.

(** Tick [k] is one of the ticks nearest to time [t], [clock] being the times of the ticks. *)
Definition nearest (clock : Z -> Q) (t : Q) (k : Z) : Prop :=
  0 <= k /\ forall j, 0 <= j -> (Qabs (t - clock k) <= Qabs (t - clock j))%Q.
(** Time [t] of a piece with one clock comes back as [t'] in a piece with another: it moves to a nearest tick. *)
Definition moves (clock clock' : Z -> Q) (t t' : Q) : Prop := exists k, nearest clock t k /\ (t' == clock' k)%Q.
(** The same with the same clock. *)
Definition snaps (clock : Z -> Q) (t t' : Q) : Prop := moves clock clock t t'.
(** ... and the time of a tick does not move. *)
Definition settles (clock : Z -> Q) (t t' : Q) : Prop :=
  snaps clock t t' /\ forall k, 0 <= k -> (t == clock k)%Q -> (t' == t)%Q.

(** [l'] are the entries [l] in some order, each entry as [R] says; those of a list in order of time keep
    their order. *)
Definition returns {A B} (time : A -> Q) (R : A -> B -> Prop) (l : list A) (l' : list B) : Prop :=
  exists l1, Permutation l1 l /\ Forall2 R l1 l' /\ (StronglySorted (fun a b => (time a <= time b)%Q) l -> l1 = l).

(** The notes of an instrument with the ticks that the piece gives for their times. *)
Definition on_ticks (p : pm) (n : snote) (w : pnote) : Prop :=
  time_to_tick p (sn_start n) = Ok (pn_start w) /\ time_to_tick p (sn_end n) = Ok (pn_end w) /\
  pn_vel w = sn_vel n /\ pn_pitch w = sn_pitch n.
(** An instrument that can be told apart in a track. *)
Definition playable (p : pm) (i : sinst) : Prop :=
  (forall n, In n (si_notes i) -> 0 < sn_vel n) /\
  exists ws, Forall2 (on_ticks p) (si_notes i) ws /\ sequential ws.
(** What pretty_midi's constructors of signatures guarantee. *)
Definition signatures_ok (d : metadata) : Prop :=
  (forall x, In x (md_keys d) -> 0 <= fst x < 24) /\ (forall x, In x (md_times d) -> 0 < fst (fst x)).

(** Instrument [i] comes back as [i'], its times as [R] says. *)
Definition same_note (R : Q -> Q -> Prop) (a b : snote) : Prop :=
  sn_vel b = sn_vel a /\ sn_pitch b = sn_pitch a /\ R (sn_start a) (sn_start b) /\ R (sn_end a) (sn_end b).
Definition same_inst (R : Q -> Q -> Prop) (i i' : sinst) : Prop :=
  si_name i' = si_name i /\ si_prog i' = si_prog i /\ si_drum i' = si_drum i /\
  (exists l, Permutation l (si_notes i) /\ Forall2 (same_note R) l (si_notes i')) /\
  (exists l, Permutation l (si_bends i) /\ Forall2 (fun a b => snd b = snd a /\ R (fst a) (fst b)) l (si_bends i')) /\
  (exists l, Permutation l (si_ccs i) /\ Forall2 (fun a b => snd (fst b) = snd (fst a) /\ snd b = snd a /\ R (fst (fst a)) (fst (fst b))) l (si_ccs i')) /\
  StronglySorted (fun a b => (sn_end a <= sn_end b)%Q) (si_notes i') /\
  StronglySorted (fun a b => (fst a <= fst b)%Q) (si_bends i') /\
  StronglySorted (fun a b => (fst (fst a) <= fst (fst b))%Q) (si_ccs i').
(** Piece [a] comes back as [b]: signatures and lyrics, a 4/4 signature at the start if there is none at time 0
    or before, and the instruments that have notes, in order. *)
Definition has_notes (i : sinst) : bool := match si_notes i with [] => false | _ => true end.
Definition with_default (l : list (Z * Z * Q)) : list (Z * Z * Q) :=
  if forallb (fun x => negb (Qle_bool (snd x) 0)) l then (4, 4, 0%Q) :: l else l.
Definition same_song (R : Q -> Q -> Prop) (a b : song) : Prop :=
  returns snd (fun x y => fst y = fst x /\ R (snd x) (snd y)) (md_keys (sg_meta a)) (md_keys (sg_meta b)) /\
  returns snd (fun x y => fst y = fst x /\ R (snd x) (snd y)) (with_default (md_times (sg_meta a))) (md_times (sg_meta b)) /\
  returns snd (fun x y => fst y = fst x /\ R (snd x) (snd y)) (md_lyrics (sg_meta a)) (md_lyrics (sg_meta b)) /\
  Forall2 (same_inst R) (filter has_notes (sg_insts a)) (sg_insts b).
(** A file as mido reads it, whose tracks do not strike a key twice at one tick nor when they end. *)
Definition clean_file (file : list ftrack) : Prop :=
  (forall t e, In t file -> In e t -> 0 <= fst e) /\
  (forall t0 rest d us, file = t0 :: rest -> In (d, FMeta (MTempo us)) t0 -> 0 < us) /\
  (forall t, In t file -> let l := f_abs 0 t in
     (forall l1 l2 l3 k c n v w, l = l1 ++ (k, FMsg (MOn c n v)) :: l2 ++ (k, FMsg (MOn c n w)) :: l3 -> 0 < v -> 0 < w -> False) /\
     (forall k c n v e, In (k, FMsg (MOn c n v)) l -> 0 < v -> In (e, FMsg MEnd) l -> k < e)).
(** The key names known to pretty_midi. *)
Definition knows_keys (keynum : string -> res Z) : Prop := forall k s, 0 <= k < 24 -> py_nth key_names k = Ok s -> keynum s = Ok k.
(** A file shorter than the limit of ticks. *)
Definition short (file : list ftrack) : Prop := forall t e, In t file -> In e (f_abs 0 t) -> fst e < MAX_TICK.
(** What mido can write: tempi of 24 bits, denominators that are powers of two, keys of the table, values of
    7 bits, bends of 14 bits. *)
Definition bits7 (v : Z) : Prop := 0 <= v <= 127.
Definition writable (dc : Z) (sg : song) : Prop :=
  0 <= dc < 16 /\
  (forall e, In e (write_tempo (p_res (sg_pm sg)) (p_scales (sg_pm sg))) -> 0 <= snd e < 2 ^ 24) /\
  (forall x, In x (md_times (sg_meta sg)) -> 0 <= fst (fst x) <= 255 /\ exists e, 0 <= e <= 255 /\ snd (fst x) = 2 ^ e) /\
  (forall x, In x (md_keys (sg_meta sg)) -> -24 <= fst x < 24) /\
  (forall i, In i (sg_insts sg) -> bits7 (si_prog i) /\
     (forall n, In n (si_notes i) -> bits7 (sn_pitch n) /\ bits7 (sn_vel n)) /\
     (forall b, In b (si_bends i) -> - 2 ^ 13 <= snd b < 2 ^ 13) /\
     (forall c, In c (si_ccs i) -> bits7 (snd (fst c)) /\ bits7 (snd c))).
(** All but the last of some values are zero. *)
Definition all_but_last_zero (l : list Z) : Prop := forall a x b, l = a ++ x :: b -> b <> [] -> x = 0.
