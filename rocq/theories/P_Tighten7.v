(** Further theorems about C162 (how a save is refused). *)
From Coq Require Import Sorted Permutation Lia Lqa Qabs Qround.
From Verif Require Import PyBase L_Base M_SortedDict M_Note M_Ticks S_Ticks L_Ticks M_Load S_Load M_Write S_Write M_Meta S_Meta M_Song S_Song S_KeyName L_Song2 L_Song6 L_Song8 L_Song9 L_Song10 P_Song.
Open Scope Z_scope.

(** C162: a piece that cannot be saved is refused with a ValueError, or with an IndexError for a key
    number that has no name; the latter surely when tempi and time signatures fit. *)
Theorem C162_refused : forall dc r sg file, 0 < r ->
  (exists evs last p0 ops, tempo_events evs /\ 0 <= last /\ pm_load r evs last = Ok p0 /\ sg_pm sg = pm_run p0 ops) \/
  (exists bpm p0 ops, (0 < bpm)%Q /\ pm_new r bpm = Ok p0 /\ sg_pm sg = pm_run p0 ops) ->
  (forall e, serialize dc sg file = Err e -> e = ValueError \/ (e = IndexError /\ exists x, In x (md_keys (sg_meta sg)) /\ ~ (-24 <= fst x < 24))) /\
  ((forall e, In e (write_tempo (p_res (sg_pm sg)) (p_scales (sg_pm sg))) -> 0 <= snd e < 2 ^ 24) ->
   (forall x, In x (md_times (sg_meta sg)) -> 0 <= fst (fst x) <= 255 /\ exists e, 0 <= e <= 255 /\ snd (fst x) = 2 ^ e) ->
   (exists x, In x (md_keys (sg_meta sg)) /\ ~ (-24 <= fst x < 24)) -> serialize dc sg file = Err IndexError).
Proof.
  intros dc r sg file Hr H.
  assert (Near : forall t, exists k, time_to_tick (sg_pm sg) t = Ok k).
  { intros t. destruct H as [(evs & last & p0 & ops & TE & L0 & PL & ->)|(bpm & p0 & ops & Hb & PN & ->)].
    + destruct (C37a r evs last p0 ops Hr TE L0 PL) as [C _]. destruct (C t) as [k [A _]]. exists k. auto.
    + destruct (C37b r bpm p0 ops Hr Hb PN) as [C _]. destruct (C t) as [k [A _]]. exists k. auto. }
  assert (NEs : p_scales (sg_pm sg) <> []).
  { destruct H as [(evs & last & p0 & ops & TE & L0 & PL & ->)|(bpm & p0 & ops & Hb & PN & ->)].
    + assert (LM : last < MAX_TICK). { destruct (Z_lt_le_dec last MAX_TICK); auto. rewrite (pm_load_reject r evs last Hr TE l) in PL. discriminate. }
      destruct (pm_load_ok r evs last Hr TE L0 LM) as (p1 & m & E1 & LT & LV & PI & PR). rewrite PL in E1. injection E1 as <-.
      destruct (pm_run_inv m ops p0 (proj1 LV) PI) as [[SC _] RS]. rewrite SC. intros E. rewrite E in LV. destruct LV as [LV _]. destruct LV as (LV & _). destruct LV as [? [? LV]]. discriminate.
    + destruct (scratch_scales r bpm p0 Hr Hb PN) as (sc & S1 & _ & _ & S2). destruct (pm_new_ok r bpm Hr Hb) as (p1 & m & E1 & VM & PI & PR & FM). rewrite PN in E1. injection E1 as <-.
      destruct (pm_run_inv m ops p0 VM PI) as [[SC _] RS]. rewrite SC. destruct PI as [<- _]. rewrite S1. discriminate. }
  split.
  - intros e. apply refused; auto.
  - intros A B C. apply refused_key; auto.
Qed.
Print Assumptions C162_refused.
(** A new piece at 120 with a key number 24: IndexError; with drum channel 16: ValueError. *)
Example C162_refused_case : exists p0, pm_new 4 120 = Ok p0 /\
  serialize 9 (mkSong p0 (mkMeta [(24, 0%Q)] [] []) []) [] = Err IndexError /\ serialize 16 (mkSong p0 (mkMeta [(23, 0%Q)] [] []) []) [] = Err ValueError.
Proof. eexists. split; [vm_compute; reflexivity|]. split; vm_compute; reflexivity. Qed.
