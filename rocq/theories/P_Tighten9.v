(** Additions to C159: what tick_to_time answers before tick 0. *)
From Coq Require Import QArith Lia Lqa Sorted.
From Verif Require Import PyBase L_Base M_Note M_Ticks S_Ticks L_Ticks M_Float S_Float L_Float L_Float2 L_Float3 L_Float4 L_Float5.
Open Scope Z_scope.

Lemma run_length : forall m ks p, vmap m -> finv m p -> 0 <= Z.of_nat (List.length (p_times p)) ->
  Z.of_nat (List.length (p_times (pm_run_f p ks))) =
  Z.max (Z.of_nat (List.length (p_times p))) (fold_right Z.max 0 (map (fun k => if k <? MAX_TICK then k + 1 else 0) ks)).
Proof.
  intros m. induction ks as [|k ks IH]; intros p V F L; [cbn; lia|]. unfold pm_run_f. cbn [fold_left map fold_right]. fold (pm_run_f (snd (tick_to_time_f p k)) ks).
  destruct (Z.ltb_spec k MAX_TICK) as [K|K].
  - destruct (Z_lt_le_dec k 0) as [N|N].
    + assert (E : snd (tick_to_time_f p k) = p).
      { unfold tick_to_time_f. destruct (Z.leb_spec MAX_TICK k); [reflexivity|]. destruct (Z.leb_spec (Z.of_nat (List.length (p_times p))) k); [lia|reflexivity]. }
      rewrite E, IH by auto. lia.
    + destruct (tick_f_ok m p k V F ltac:(lia)) as [p' [E [F' LE]]]. rewrite E. cbn [snd]. rewrite IH by (auto; lia). lia.
  - assert (E : snd (tick_to_time_f p k) = p) by (unfold tick_to_time_f; destruct (Z.leb_spec MAX_TICK k); [reflexivity|lia]).
    rewrite E, IH by auto. lia.
Qed.
(** C159: tick_to_time of a negative tick counts back from the end of the table, whose length is two more than
    the last tick of the file or one more than the largest tick converted so far; beyond that it raises
    IndexError.  Nothing is changed. *)
Theorem C159_negative : forall resolution evs last p ks k, 0 < resolution -> tempo_events evs -> 0 <= last < MAX_TICK - 1 ->
  (forall e, In e evs -> fst e <= last) -> pm_load_f resolution evs last = Ok p -> k < 0 ->
  let q := pm_run_f p ks in
  let n := Z.max (last + 2) (fold_right Z.max 0 (map (fun k => if k <? MAX_TICK then k + 1 else 0) ks)) in
  snd (tick_to_time_f q k) = q /\
  fst (tick_to_time_f q k) = (if - n <=? k then fst (tick_to_time_f q (n + k)) else Err IndexError).
Proof.
  intros r evs last p ks k R TE L B E K q n. destruct (pm_load_f_ok r evs last R TE ltac:(lia) B) as [p0 [m [b [E0 [EM [I [F LN]]]]]]].
  rewrite E in E0. injection E0 as <-. pose proof (linv_vmap _ _ _ _ R TE I) as V. pose proof (run_length m ks p V F ltac:(lia)) as LQ. fold q in LQ. rewrite LN in LQ. fold n in LQ.
  assert (NM : n <= MAX_TICK).
  { unfold n. assert (fold_right Z.max 0 (map (fun k => if k <? MAX_TICK then k + 1 else 0) ks) <= MAX_TICK); [|lia].
    clear. induction ks as [|k ks IH]; cbn [map fold_right]; [unfold MAX_TICK; lia|]. destruct (Z.ltb_spec k MAX_TICK); unfold MAX_TICK in *; lia. }
  assert (N0 : 0 < n) by (unfold n; lia). unfold tick_to_time_f at 1 2. destruct (Z.leb_spec MAX_TICK k); [unfold MAX_TICK in *; lia|]. rewrite LQ.
  destruct (Z.leb_spec n k); [lia|]. cbn [fst snd]. split; [reflexivity|]. unfold py_nth. destruct (Z.ltb_spec k 0); [|lia]. rewrite LQ.
  destruct (Z.leb_spec (- n) k) as [C|C].
  - destruct (Z.ltb_spec (k + n) 0); [lia|]. unfold tick_to_time_f. destruct (Z.leb_spec MAX_TICK (n + k)); [lia|]. rewrite LQ. destruct (Z.leb_spec n (n + k)); [lia|]. cbn [fst].
    unfold py_nth. destruct (Z.ltb_spec (n + k) 0); [lia|]. destruct (Z.ltb_spec (n + k) 0); [lia|]. rewrite (Z.add_comm k n). reflexivity.
  - destruct (Z.ltb_spec (k + n) 0); [reflexivity|lia].
Qed.
Print Assumptions C159_negative.
Example C159_negative_case : bind (pm_load_f 220 [(0, 461538)] 4) (fun p => Ok (fst (tick_to_time_f p (-6)), fst (tick_to_time_f p (-7)), fst (tick_to_time_f (pm_run_f p [9]) (-7)))) =
  Ok (Ok 0%Q, Err IndexError, fst (tick_to_time_f (pm_run_f (mkPM 220 [(0, sv 220 461538)] [0%Q; 1%Q; 2%Q; 3%Q; 4%Q; 5%Q]) [9]) 3)).
Proof. vm_compute. reflexivity. Qed.
