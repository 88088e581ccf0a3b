(** Property C206: the signatures of a converted piece.  Specification: S_Convert, S_Convert3, S_Seq (selects). *)
From Coq Require Import Lqa Lia Sorted Permutation.
From Verif Require Import PyBase L_Base M_Beats L_Beats L_Beats3 L_Beats5 M_Adjust S_Adjust L_Adjust L_Adjust2 L_Adjust3 L_Adjust4 M_SortedDict M_Note L_Note M_Events M_Seq S_Seq L_Seq M_Seqs M_Ticks S_Ticks L_Ticks M_Load M_Write M_Meta L_Meta M_Song M_Reader S_Reader L_Reader L_Reader2 L_Reader3 M_Pipe M_Tempi S_Tempi L_Tempi L_Tempi2 P_Tempi M_Convert S_Convert L_Convert L_Convert2 L_Convert3 L_Convert4 L_Convert11 S_Convert3 P_Convert3.
Open Scope Z_scope.

Lemma times_map : forall l w, Forall2 time_put l w -> w = map (fun s => (g_data s, g_time s)) l.
Proof. intros l w F. induction F as [|s x l w (H1 & H2 & _) F IH]; [reflexivity|]. cbn [map]. rewrite <- IH, <- H1, <- H2. destruct x as [x1 x2]; reflexivity. Qed.
Definition key_of (s : sig (Z * bool)) : Z := fst (g_data s) + (if snd (g_data s) then 12 else 0).
Lemma keys_map : forall l w, Forall2 key_put l w -> w = map (fun s => (key_of s, g_time s)) l.
Proof. intros l w F. induction F as [|s x l w (H1 & H2 & _) F IH]; [reflexivity|]. cbn [map]. rewrite <- IH, <- H2. unfold key_of. rewrite <- H1. destruct x as [x1 x2]; reflexivity. Qed.
Lemma selects_p : forall A (P : A -> Prop) l k, selects P l k -> forall x, In x k -> P x.
Proof. intros A P l k H. induction H; intros y Y; [destruct Y|destruct Y as [<-|Y]; auto|auto]. Qed.

(** Where a retimed list of events at times 0..e on the line from (0, lo) to (e, hi) comes from. *)
Lemma on_line : forall e lo hi t, (0 < e)%Q -> (lo < hi)%Q -> (0 <= t)%Q -> (t <= e)%Q -> let y := interp [(0, lo); (e, hi)]%Q t in
  ((y == lo)%Q <-> (t == 0)%Q) /\ (Qltb lo y && Qltb y hi = Qltb 0 t && Qltb t e).
Proof.
  intros e lo hi t E L T1 T2 y. pose proof (line e lo hi t E T1 T2) as LN. fold y in LN. assert (S : (0 < (hi - lo) / e)%Q) by (apply Qlt_shift_div_l; lra).
  set (k := ((hi - lo) / e)%Q) in *. assert (K : (k * e == hi - lo)%Q) by (unfold k; field; lra). clearbody k y.
  assert (M1 : (0 < t)%Q -> (0 < k * t)%Q) by (intro; apply Qmult_lt_0_compat; lra).
  assert (M2 : (t < e)%Q -> (k * t < k * e)%Q) by (intro; apply Qmult_lt_l; lra).
  assert (M0 : (t == 0)%Q -> (k * t == 0)%Q) by (intros ->; ring). assert (M3 : (t == e)%Q -> (k * t == k * e)%Q) by (intros ->; reflexivity).
  split.
  - split; intro H; [destruct (Qlt_le_dec 0 t) as [G|G]; [specialize (M1 G)|]; lra|specialize (M0 H); lra].
  - destruct (Qltb 0 t) eqn:B1; destruct (Qltb t e) eqn:B2; [apply Qltb_lt in B1, B2|apply Qltb_lt in B1; apply Qltb_ge in B2|apply Qltb_ge in B1; apply Qltb_lt in B2|apply Qltb_ge in B1; apply Qltb_ge in B2]; cbn [andb].
    + specialize (M1 B1); specialize (M2 B2). apply andb_true_intro. split; apply Qltb_lt; lra.
    + apply andb_false_iff. right. apply Qltb_ge. assert (t == e)%Q by lra. specialize (M3 H). lra.
    + apply andb_false_iff. left. apply Qltb_ge. assert (t == 0)%Q by lra. specialize (M0 H). lra.
    + exfalso; lra.
Qed.
Lemma filter_ext_in : forall A (f g : A -> bool) l, (forall a, In a l -> f a = g a) -> filter f l = filter g l.
Proof. intros A f g l H. induction l as [|a l IH]; cbn; auto. rewrite H by (left; auto). rewrite IH by (intros; apply H; right; auto). reflexivity. Qed.
Lemma asc_line : forall e lo hi, (0 < e)%Q -> (lo < hi)%Q -> asc [(0, lo); (e, hi)]%Q.
Proof. intros e lo hi E L. constructor; [constructor; constructor|]. constructor; [|constructor]. cbn. split; lra. Qed.

(** The parts of the result before they are read off. *)
Lemma through : forall fuel srt so a b sg, argsorts srt -> to_pretty_midi fuel srt so a (Some b) = Ok (Some sg) ->
  exists raw raw' t lt lk st sk downs e lo hi, convert_raw so (Some b) = Ok raw /\ song_end raw = Ok (e, raw') /\ last_end so t /\
  Permutation lt (so_times so) /\ selects (fun s => (g_time s <= t)%Q) lt st /\ (forall s, In s st -> time_proper s /\ (g_time s <= e)%Q) /\
  Permutation lk (so_keys so) /\ selects (fun s => (g_time s <= t)%Q) lk sk /\ (forall s, In s sk -> key_proper s /\ (g_time s <= e)%Q) /\
  (0 < e)%Q /\ (0 <= lo)%Q /\ (lo < hi)%Q /\ (hi <= e)%Q /\ (lo == Qmaxb 0 (match a with Some v => v | None => 0%Q end))%Q /\ (hi == Qminb b e)%Q /\
  (exists r, downs = 0%Q :: r) /\
  md_times (sg_meta sg) = map (fun s => (ts_num s, ts_den s, ts_time s)) (adjust_sigs [(0, lo); (e, hi)]%Q downs (map (fun s => mkTS (fst (g_data s)) (snd (g_data s)) (g_time s)) st)) /\
  md_keys (sg_meta sg) = adjust_list snd (fun k t => (fst k, t)) [(0, lo); (e, hi)]%Q (map (fun s => (key_of s, g_time s)) sk) /\
  md_lyrics (sg_meta sg) = [].
Proof.
  intros fuel srt so a b sg A H. destruct (stages fuel srt so a b sg A H) as (raw & sg1 & RW & FT & _ & RH & IS & MS).
  destruct (C195_signatures so b raw RW) as (t & lt & lk & st & sk & LE & P1 & S1 & F1 & P2 & S2 & F2 & LY).
  destruct (raw_parts so (Some b) raw RW) as (t' & p0 & l & TT & _ & MT & MK & _ & _ & TI & RI).
  assert (EMP : In (mkSI "" 0 false [] [] []) (sg_insts raw)).
  { rewrite RI. unfold to_instruments in TI. rewrite TT in TI. cbn [bind] in TI. destruct (conv_insts _ _ _) as [w|x] in TI; cbn [bind] in TI; [|discriminate]. apply Ok_inj in TI. subst l. left. reflexivity. }
  destruct (fit_meta fuel raw a b sg1 FT EMP) as (tempi & p1 & tempi0 & downs & G & E & GD & lo & hi & L0 & L1 & L2 & L3 & L4 & IN & TM & KY & LR).
  set (e := piece_end tempi (tsigs (sg_meta raw)) (other_times raw)) in *.
  pose proof (times_map _ _ F1) as RT. pose proof (keys_map _ _ F2) as RK.
  assert (TS : tsigs (sg_meta raw) = map (fun s => mkTS (fst (g_data s)) (snd (g_data s)) (g_time s)) st) by (unfold tsigs; rewrite RT, map_map; reflexivity).
  assert (PT : forall s, In s st -> time_proper s). { intros s I. clear - F1 I. induction F1 as [|x y la lb (_ & _ & K) F IH]; [destruct I|]. destruct I as [<-|I]; [exact K|auto]. }
  assert (PK : forall s, In s sk -> key_proper s). { intros s I. clear - F2 I. induction F2 as [|x y la lb (K0 & _ & K) F IH]; [destruct I|]. destruct I as [<-|I]; [|auto]. unfold key_proper. rewrite <- K0. exact K. }
  assert (TE : forall s, In s st -> (g_time s <= e)%Q). { intros s I. unfold e. apply end_ge. apply in_app_iff. right. apply in_app_iff. left. rewrite TS, map_map. apply in_map_iff. exists s. split; auto. }
  assert (KE : forall s, In s sk -> (g_time s <= e)%Q). { intros s I. unfold e. apply end_ge. apply in_app_iff. left. unfold other_times. apply in_app_iff. right. apply in_app_iff. left. rewrite RK, map_map. apply in_map_iff. exists s. split; auto. }
  (* a note with a positive end *)
  set (m := [(0, lo); (e, hi)]%Q) in *. pose proof (asc_line e lo hi E L1) as AM. fold m in AM.
  assert (NP : exists i n, In i (sg_insts raw) /\ In n (si_notes i) /\ (0 < sn_end n)%Q).
  { destruct RH as (x & y & X & Y & D & _). rewrite IS, IN in X, Y. apply in_flat_map in X as [i1 [I1 X]]. apply in_flat_map in Y as [i2 [I2 Y]]. apply in_map_iff in I1 as [j1 [<- J1]]. apply in_map_iff in I2 as [j2 [<- J2]].
    cbn [refit si_notes] in X, Y. apply in_map_iff in X as [ax [<- X]]. apply in_map_iff in Y as [ay [<- Y]]. cbn [sn_start] in D.
    pose proof (notes_carried _ m (map (fun n => mkAN (sn_start n) (sn_end n) (sn_vel n, sn_pitch n)) (si_notes j1))) as C1. pose proof (notes_carried _ m (map (fun n => mkAN (sn_start n) (sn_end n) (sn_vel n, sn_pitch n)) (si_notes j2))) as C2.
    assert (CI : forall A B (K : A -> Prop) (R : A -> B -> Prop) l1 l2, carried K R l1 l2 -> forall z, In z l2 -> exists w, In w l1 /\ K w /\ R w z).
    { clear. intros A B K R l1 l2 C. induction C as [|p q l1 l2 K1 R1 C IH|p l1 l2 K1 C IH]; intros z I; [destruct I| |]; [destruct I as [<-|I]; [exists p; split; [left|]; auto|]|]; destruct (IH z I) as (w & W & K2); exists w; split; auto; right; auto. }
    destruct (CI _ _ _ _ _ _ C1 _ X) as (w1 & W1 & _ & (Q1 & _)). destruct (CI _ _ _ _ _ _ C2 _ Y) as (w2 & W2 & (_ & _ & Q3) & (Q2 & _)).
    apply in_map_iff in W2 as [n2 [<- W2]]. cbn [an_start an_end] in Q2, Q3. exists j2, n2. split; auto. split; auto. destruct (Qlt_le_dec 0 (sn_end n2)) as [|N0]; auto. exfalso.
    assert (M1 : (interp m (sn_end n2) <= lo)%Q). { assert (interp m 0 == lo)%Q by (apply interp_at; auto; left; reflexivity). pose proof (interp_mono m (sn_end n2) 0 AM N0). lra. }
    destruct (interp_range m (an_start w1) AM ltac:(discriminate)) as [M2 _]. change (first_y m) with lo in M2. unfold pos in *.
    rewrite Q1, Q2 in D. destruct (Qltb 0 (interp m (sn_end n2))) eqn:B1; destruct (Qltb 0 (interp m (sn_start n2))) eqn:B2; destruct (Qltb 0 (interp m (an_start w1))) eqn:B3;
    repeat match goal with [ Hx : Qltb _ _ = true |- _ ] => apply Qltb_lt in Hx | [ Hx : Qltb _ _ = false |- _ ] => apply Qltb_ge in Hx end; lra. }
  assert (PE : (0 < piece_end tempi0 (sort_sigs (tsigs (sg_meta raw))) (other_times raw))%Q).
  { destruct NP as (i & n & I & N & P). assert (X : (inst_end i <= piece_end tempi0 (sort_sigs (tsigs (sg_meta raw))) (other_times raw))%Q) by (apply end_ge; apply in_app_iff; left; unfold other_times; apply in_app_iff; left; apply in_map; auto).
    assert (Y : (sn_end n <= inst_end i)%Q) by (apply end_ge; apply in_app_iff; left; apply in_map; auto). lra. }
  exists raw, (M_Song.mkSong p1 (sg_meta raw) (sg_insts raw)), t, lt, lk, st, sk, downs, e, lo, hi. split; auto. split; [unfold song_end; rewrite G; reflexivity|]. split; auto. split; auto. split; auto. split; [intros s I; split; auto|]. split; auto. split; auto. split; [intros s I; split; auto|].
  split; auto. split; auto. split; auto. split; auto. split; auto. split; auto. split.
  { eapply first_down; [exact PE| |exact GD]. intros s I. rewrite TS in I. apply in_map_iff in I as [x [<- I]]. apply PT in I. apply I. }
  split; [rewrite MS, TM, TS; reflexivity|]. split; [rewrite MS, KY, RK; reflexivity|]. rewrite MS, LR, LY. reflexivity.
Qed.

(** The signatures after the first downbeat, which is at 0, has been given one. *)
Lemma sigs_line : forall e lo hi r l, (0 < e)%Q -> (lo < hi)%Q -> (forall s, In s l -> (0 <= ts_time s)%Q /\ (ts_time s <= e)%Q) -> let m := [(0, lo); (e, hi)]%Q in
  exists n d y t, adjust_sigs m (0%Q :: r) l = mkTS n d y :: t /\ (y == lo)%Q /\
  (((forall s, In s l -> (0 < ts_time s)%Q) /\ n = 4 /\ d = 4) \/
   exists l1 s l2, l = l1 ++ s :: l2 /\ (ts_time s == 0)%Q /\ n = ts_num s /\ d = ts_den s /\ forall s', In s' l2 -> (0 < ts_time s')%Q) /\
  StronglySorted (fun a b => (ts_time a <= ts_time b)%Q) t /\
  Permutation t (map (fun s => mkTS (ts_num s) (ts_den s) (interp m (ts_time s))) (filter (fun s => Qltb 0 (ts_time s) && Qltb (ts_time s) e) l)).
Proof.
  intros e lo hi r l E L H m. pose proof (asc_line e lo hi E L) as AM. fold m in AM.
  pose proof (retimed_list ts_time set_ts ltac:(reflexivity) m l AM) as R. unfold adjust_sigs. set (l1 := adjust_list ts_time set_ts m l) in *. cbv zeta.
  change (first_x m) with 0%Q. cbn [filter]. change (Qle_bool 0 0) with true. cbv iota. cbn [map]. assert (D0 : (interp m 0 == lo)%Q) by (apply interp_at; auto; left; reflexivity).
  set (dd := interp m 0) in *. destruct R as (h & t & EL & SS & PM & HD). change (first_y m) with lo in *. change (last_y m) with hi in *.
  assert (OL : forall s, In s l -> ((interp m (ts_time s) == lo)%Q <-> (ts_time s == 0)%Q) /\ (Qltb lo (interp m (ts_time s)) && Qltb (interp m (ts_time s)) hi = Qltb 0 (ts_time s) && Qltb (ts_time s) e)).
  { intros s I. destruct (H s I). apply on_line; auto. }
  rewrite (filter_ext_in _ _ (fun s => Qltb 0 (ts_time s) && Qltb (ts_time s) e) l) in PM by (intros s I; apply OL; auto).
  assert (TG : forall s, In s t -> (dd < ts_time s)%Q).
  { intros s I. apply (Permutation_in _ PM) in I. apply in_map_iff in I as [s0 [<- I]]. apply filter_In in I as [I1 I2]. rewrite <- (proj2 (OL s0 I1)) in I2. apply andb_prop in I2 as [I2 _]. apply Qltb_lt in I2. cbn [set_ts ts_time]. lra. }
  assert (EX : forall k, (forall s, In s k -> (dd < ts_time s)%Q) -> existsb (fun t => Qle_bool (ts_time t) dd) k = false /\ filter (fun t => Qle_bool dd (ts_time t)) k = k).
  { induction k as [|x k IH]; intro K; [auto|]. cbn [existsb filter]. destruct (IH ltac:(intros; apply K; right; auto)) as [-> ->]. pose proof (K x (or_introl eq_refl)) as KX.
    replace (Qle_bool (ts_time x) dd) with false by (symmetry; apply Qle_bool_false; auto). replace (Qle_bool dd (ts_time x)) with true by (symmetry; apply Qle_bool_iff; lra). auto. }
  destruct (EX t TG) as [X1 X2]. clearbody l1. assert (ST : StronglySorted (fun a b => (ts_time a <= ts_time b)%Q) t).
  { rewrite EL in SS. clear - SS. induction h as [|x h IH]; auto. cbn [app] in SS. inversion SS; subst. auto. }
  destruct HD as [[-> N0]|(k1 & s & k2 & EK & S0 & -> & _ & S2)]; cbn [app] in EL; subst l1.
  - rewrite X1. exists 4, 4, dd, t. split; [reflexivity|]. split; auto. split; [|split; auto]. left. split; auto. intros s I. destruct (H s I) as [H1 _]. destruct (Qlt_le_dec 0 (ts_time s)) as [|G]; auto. exfalso. apply (N0 s I). apply (proj1 (OL s I)). lra.
  - cbn [existsb move_last]. rewrite X1. cbn [set_ts ts_time] in *. fold m in S0 |- *. replace (Qle_bool (interp m (ts_time s)) dd) with true by (symmetry; apply Qle_bool_iff; lra). cbn [orb].
    cbn [filter]. change (ts_time (set_ts (set_ts s (interp m (ts_time s))) dd)) with dd. replace (Qle_bool dd dd) with true by (symmetry; apply Qle_bool_iff; lra). rewrite X2. exists (ts_num s), (ts_den s), dd, t. split; [reflexivity|]. split; auto. split; [|split; auto].
    assert (IS : In s l) by (rewrite EK; apply in_app_iff; right; left; auto). right. exists k1, s, k2. split; auto. assert (T0 : (ts_time s == 0)%Q) by (apply (proj1 (OL s IS)); auto). split; auto. split; auto. split; auto.
    intros s' I. assert (I' : In s' l) by (rewrite EK; apply in_app_iff; right; right; auto). destruct (H s' I') as [H1 _]. destruct (Qlt_le_dec 0 (ts_time s')) as [|G]; auto. exfalso.
    assert (Z1 : (ts_time s' == 0)%Q) by lra. apply (proj1 (OL s' I')) in Z1. specialize (S2 s' I Z1). lra.
Qed.
Lemma map_split : forall A B (f : A -> B) l l1 s l2, map f l = l1 ++ s :: l2 -> exists k1 x k2, l = k1 ++ x :: k2 /\ map f k1 = l1 /\ f x = s /\ map f k2 = l2.
Proof.
  intros A B f l. induction l as [|a l IH]; intros l1 s l2 E; [destruct l1; discriminate|]. destruct l1 as [|b l1]; cbn [map app] in E; injection E as E1 E2.
  - exists [], a, l. auto.
  - destruct (IH _ _ _ E2) as (k1 & x & k2 & -> & K1 & K2 & K3). exists (a :: k1), x, k2. cbn. rewrite K1, E1. auto.
Qed.

(** C206: the time signatures of the converted piece.  The first one is where the piece now starts; it is the
    last one that was at time 0, and 4/4 if there was none.  The others are, in time order, exactly those that
    were after 0 and before the end of the piece, moved along the same line as the notes. *)
Theorem C206_times : forall fuel srt so a b sg, argsorts srt -> to_pretty_midi fuel srt so a (Some b) = Ok (Some sg) ->
  exists raw raw' t lt st e lo hi f, convert_raw so (Some b) = Ok raw /\ song_end raw = Ok (e, raw') /\
  last_end so t /\ Permutation lt (so_times so) /\ selects (fun s => (g_time s <= t)%Q) lt st /\
  (0 < e)%Q /\ (0 <= lo)%Q /\ (lo < hi)%Q /\ (lo == Qmaxb 0 (match a with Some v => v | None => 0%Q end))%Q /\ (hi == Qminb b e)%Q /\
  (forall x, (0 <= x)%Q -> (x <= e)%Q -> (f x == lo + (hi - lo) / e * x)%Q) /\
  exists n d y rest, md_times (sg_meta sg) = (n, d, y) :: rest /\ (y == lo)%Q /\
  (((forall s, In s st -> (0 < g_time s)%Q) /\ (n, d) = (4, 4)) \/
   exists l1 s l2, st = l1 ++ s :: l2 /\ (g_time s == 0)%Q /\ (n, d) = g_data s /\ forall s', In s' l2 -> (0 < g_time s')%Q) /\
  StronglySorted (fun x x' => (snd x <= snd x')%Q) rest /\
  Permutation rest (map (fun s => (g_data s, f (g_time s))) (filter (fun s => Qltb 0 (g_time s) && Qltb (g_time s) e) st)).
Proof.
  intros fuel srt so a b sg A H. destruct (through fuel srt so a b sg A H) as (raw & raw' & t & lt & lk & st & sk & downs & e & lo & hi & RW & SE & LE & P1 & S1 & PT & _ & _ & _ & E & L0 & L1 & L2 & L3 & L4 & [r ->] & TM & _).
  exists raw, raw', t, lt, st, e, lo, hi, (interp [(0, lo); (e, hi)]%Q). split; auto. split; auto. split; auto. split; auto. split; auto. split; auto. split; auto. split; auto. split; auto. split; auto.
  split; [intros; apply line; auto|].
  destruct (sigs_line e lo hi r (map (fun s => mkTS (fst (g_data s)) (snd (g_data s)) (g_time s)) st) E L1) as (n & d & y & w & EW & EY & HD & SW & PW).
  { intros s I. apply in_map_iff in I as [x [<- I]]. cbn [ts_time]. destruct (PT x I) as [(_ & _ & K) K2]. auto. }
  rewrite EW in TM. cbn [map ts_num ts_den ts_time] in TM. exists n, d, y, (map (fun s => (ts_num s, ts_den s, ts_time s)) w). split; auto. split; auto. split; [|split].
  - destruct HD as [[Z0 [-> ->]]|(l1 & s & l2 & EL & ES & -> & -> & EN)].
    + left. split; auto. intros s I. apply (Z0 (mkTS (fst (g_data s)) (snd (g_data s)) (g_time s))). apply in_map_iff. eauto.
    + right. destruct (map_split _ _ _ _ _ _ _ EL) as (k1 & x & k2 & -> & <- & <- & <-). exists k1, x, k2. cbn [ts_time ts_num ts_den] in *. split; auto. split; auto. split; [symmetry; apply surjective_pairing|].
      intros s' I. apply (EN (mkTS (fst (g_data s')) (snd (g_data s')) (g_time s'))). apply in_map_iff. eauto.
  - clear - SW. induction SW as [|x w S IH F]; cbn [map]; constructor; auto. rewrite Forall_forall in *. intros z Z0. apply in_map_iff in Z0 as [x' [<- I]]. cbn [snd]. auto.
  - eapply Permutation_trans; [apply Permutation_map; exact PW|]. rewrite L_Convert2.filter_map, !map_map. cbn [ts_time ts_num ts_den]. apply Permutation_refl'. apply map_ext. intros s. rewrite <- surjective_pairing. reflexivity.
Qed.
Print Assumptions C206_times.
(** C206: the key signatures: of those at time 0 the last one, then those after 0 and before the end, moved along
    the same line.  Lyrics: none. *)
Theorem C206_keys : forall fuel srt so a b sg, argsorts srt -> to_pretty_midi fuel srt so a (Some b) = Ok (Some sg) ->
  exists raw raw' t lk sk e lo hi f, convert_raw so (Some b) = Ok raw /\ song_end raw = Ok (e, raw') /\
  last_end so t /\ Permutation lk (so_keys so) /\ selects (fun s => (g_time s <= t)%Q) lk sk /\
  (0 < e)%Q /\ (0 <= lo)%Q /\ (lo < hi)%Q /\ (lo == Qmaxb 0 (match a with Some v => v | None => 0%Q end))%Q /\ (hi == Qminb b e)%Q /\
  (forall x, (0 <= x)%Q -> (x <= e)%Q -> (f x == lo + (hi - lo) / e * x)%Q) /\
  (exists first rest, md_keys (sg_meta sg) = first ++ rest /\
  ((first = [] /\ forall s, In s sk -> (0 < g_time s)%Q) \/
   exists l1 s l2 y, sk = l1 ++ s :: l2 /\ (g_time s == 0)%Q /\ (forall s', In s' l2 -> (0 < g_time s')%Q) /\
     first = [(fst (g_data s) + (if snd (g_data s) then 12 else 0), y)] /\ (y == lo)%Q) /\
  StronglySorted (fun x x' => (snd x <= snd x')%Q) (first ++ rest) /\
  Permutation rest (map (fun s : sig (Z * bool) => (fst (g_data s) + (if snd (g_data s) then 12 else 0), f (g_time s))) (filter (fun s => Qltb 0 (g_time s) && Qltb (g_time s) e) sk))) /\
  md_lyrics (sg_meta sg) = [].
Proof.
  intros fuel srt so a b sg A H. destruct (through fuel srt so a b sg A H) as (raw & raw' & t & lt & lk & st & sk & downs & e & lo & hi & RW & SE & LE & _ & _ & _ & P2 & S2 & PK & E & L0 & L1 & L2 & L3 & L4 & _ & _ & KM & LY).
  set (m := [(0, lo); (e, hi)]%Q) in *. pose proof (asc_line e lo hi E L1) as AM. fold m in AM.
  exists raw, raw', t, lk, sk, e, lo, hi, (interp m). split; auto. split; auto. split; auto. split; auto. split; auto. split; auto. split; auto. split; auto. split; auto. split; auto.
  split; [intros; apply line; auto|]. split; auto.
  destruct (retimed_list (@snd Z Q) (fun (k : Z * Q) (t0 : Q) => (fst k, t0)) (fun _ _ => eq_refl) m (map (fun s : sig (Z * bool) => (key_of s, g_time s)) sk) AM) as (h & w & EL & SS & PM & HD). rewrite <- KM in *. change (first_y m) with lo in *. change (last_y m) with hi in *.
  assert (OL : forall s : sig (Z * bool), In s sk -> ((interp m (g_time s) == lo)%Q <-> (g_time s == 0)%Q) /\ (Qltb lo (interp m (g_time s)) && Qltb (interp m (g_time s)) hi = Qltb 0 (g_time s) && Qltb (g_time s) e)).
  { intros s I. destruct (PK s I) as [(_ & K) K2]. apply on_line; auto. }
  exists h, w. rewrite <- EL. split; auto. split; [|split; auto].
  - destruct HD as [[-> N0]|(k1 & s & k2 & EK & S0 & -> & _ & K3)].
    + left. split; auto. intros s I. destruct (PK s I) as [(_ & K) K2]. destruct (Qlt_le_dec 0 (g_time s)) as [|G]; auto. exfalso. apply (N0 (key_of s, g_time s)); [apply in_map_iff; eauto|]. cbn [snd]. apply (proj1 (OL s I)). lra.
    + right. destruct (map_split _ _ _ _ _ _ _ EK) as (j1 & x & j2 & EJ & <- & <- & <-). cbn [snd fst] in *. assert (IX : In x sk) by (rewrite EJ; apply in_app_iff; right; left; auto).
      assert (T0 : (g_time x == 0)%Q) by (apply (proj1 (OL x IX)); auto). exists j1, x, j2, (interp m (g_time x)). split; auto. split; auto. split; [|split; auto].
      intros s' I. assert (I' : In s' sk) by (rewrite EJ; apply in_app_iff; right; right; auto). destruct (PK s' I') as [(_ & K) _]. destruct (Qlt_le_dec 0 (g_time s')) as [|G]; auto. exfalso.
      assert (Z1 : (g_time s' == 0)%Q) by lra. pose proof (proj2 (proj1 (OL s' I')) Z1) as Z2. assert (I2 : In (key_of s', g_time s') (map (fun s => (key_of s, g_time s)) j2)) by (apply in_map_iff; eauto). specialize (K3 _ I2 Z2). cbn [snd] in K3. lra.
  - rewrite L_Convert2.filter_map, map_map in PM. cbn [snd fst] in PM. rewrite (filter_ext_in _ _ (fun s => Qltb 0 (g_time s) && Qltb (g_time s) e) sk) in PM by (intros s I; apply OL; auto). exact PM.
Qed.
Print Assumptions C206_keys.
(** A piece in 3/4 and A minor that goes on in 6/8 and E flat major at 2 s, stretched from 0..5 to 1..2; and a
    piece without a signature at time 0, which gets 4/4. *)
Example C206_case : (exists so sg, read f195 = Ok so /\ to_pretty_midi 100 stable_argsort so (Some 1%Q) (Some 2%Q) = Ok (Some sg) /\
  argsorts stable_argsort /\
  map (fun x => (fst x, Qred (snd x))) (md_times (sg_meta sg)) = [(3, 4, 1%Q); (6, 8, 7 # 5)] /\
  map (fun x => (fst x, Qred (snd x))) (md_keys (sg_meta sg)) = [(21, 1%Q); (3, 7 # 5)]) /\
  (exists so sg, read (mkMF 4 [] [(0, 120)]%Q [(6, 8, 2%Q)] [mkRI 5 false "a" [mkRN 90 60 0 1; mkRN 80 62 1 2; mkRN 70 64 2 5] [] []]) = Ok so /\
   to_pretty_midi 100 stable_argsort (mkSong (so_ms so) (so_total so) (so_keys so) (so_tempos so) [mkSig 2 0 (6, 8)]) None (Some 5%Q) = Ok (Some sg) /\
   map (fun x => (fst x, Qred (snd x))) (md_times (sg_meta sg)) = [(4, 4, 0%Q); (6, 8, 2%Q)]).
Proof.
  split; do 2 eexists; (split; [vm_compute; reflexivity|]); (split; [vm_compute; reflexivity|]); [|vm_compute; reflexivity].
  split; [exact argsorts_case|]. split; vm_compute; reflexivity.
Qed.
