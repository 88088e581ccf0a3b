(** Property C217: adjust_times in double precision. *)
From Coq Require Import Sorted Permutation Lqa Lia.
From Verif Require Import PyBase L_Base M_Note L_Note M_Float L_Float L_Float2 L_NoteF M_Beats S_Beats M_Adjust S_Adjust L_Adjust L_Adjust2 L_Adjust3 L_Adjust4 S_Snap S_AdjustF M_AdjustF L_AdjustF L_AdjustF2 L_AdjustF3 P_Adjust.
Open Scope Q_scope.

Lemma long_ok_f : forall orig new, orig <> [] -> enough orig new -> times_used new -> exists m,
  time_map orig new = Ok m /\ m <> [] /\ breakpoints orig new m /\ asc m /\ nonneg m /\ doubled m.
Proof.
  intros orig new NE LG U. destruct (long_ok orig new NE LG) as (m & E & NM & B & A). exists m. split; auto. split; auto. split; auto. split; auto.
  assert (G : forall c, In c m -> 0 <= snd c /\ fl (snd c) == snd c).
  { intros [x y] Hc. destruct B as (_ & _ & B). destruct (B x y Hc) as (_ & (i & x' & _ & _ & K) & _). apply U. eapply nth_error_In; eauto. }
  split; intros c Hc; apply G; auto.
Qed.
Definition moved_f {N B C K L} (downs : list Q) (m : list (Q * Q)) (p : piece N B C K L) : piece N B C K L :=
  mkPiece (map (adjust_notes_f m) (p_notes p)) (map (adjust_events_f m) (p_bends p)) (map (adjust_events_f m) (p_ccs p))
    (adjust_events_f m (p_keys p)) (adjust_events_f m (p_lyrics p)) (adjust_sigs_f m downs (p_sigs p)) (p_scales p).
Lemma adjust_ok_f : forall N B C K L r downs snap tempi orig new (p : piece N B C K L) m, time_map orig new = Ok m -> m <> [] ->
  adjust_times_f r downs snap tempi orig new p =
  match new_scales_f r (new_tempi_f (map (fun c => (snap (fst c), snd c)) m) tempi) with
  | Err e => (Err e, moved_f downs m p)
  | Ok s => let p1 := moved_f downs m p in (Ok tt, mkPiece (p_notes p1) (p_bends p1) (p_ccs p1) (p_keys p1) (p_lyrics p1) (p_sigs p1) s)
  end.
Proof. intros N B C K L r downs snap tempi orig new p m E NE. unfold adjust_times_f. rewrite E. destruct m; [congruence|reflexivity]. Qed.
Lemma adjust_parts_f : forall N B C K L r downs snap tempi orig new (p : piece N B C K L) m, time_map orig new = Ok m -> m <> [] ->
  let p' := snd (adjust_times_f r downs snap tempi orig new p) in let p1 := moved_f downs m p in
  p_notes p' = p_notes p1 /\ p_bends p' = p_bends p1 /\ p_ccs p' = p_ccs p1 /\ p_keys p' = p_keys p1 /\ p_lyrics p' = p_lyrics p1 /\ p_sigs p' = p_sigs p1.
Proof. intros. subst p' p1. rewrite (adjust_ok_f _ _ _ _ _ r downs snap tempi orig new p m H H0). destruct (new_scales_f _ _); cbn; auto 8. Qed.
Lemma ends_eq' : forall m, first_x m = fst (begins m) /\ first_y m = snd (begins m) /\ last_x m = fst (ends m) /\ last_y m = snd (ends m).
Proof. intros [|[x y] m]; auto. Qed.
Lemma pos_nonneg : forall m x, asc m -> nonneg m -> pos (interp_f m x) == interp_f m x.
Proof. intros m x A P. destruct (interp_near m x A P) as [H _]. unfold pos. qc (Qltb 0 (interp_f m x)); lra. Qed.
Lemma carried_lookup : forall A B (k : A -> Prop) (R : A -> B -> Prop) l l', carried k R l l' -> forall a, In a l -> k a -> exists b, In b l' /\ R a b.
Proof.
  intros A B k R l l' H. induction H as [|a b l l' K0 R0 H IH|a l l' K0 H IH]; intros x Hx Kx; [contradiction| |].
  - destruct Hx as [<- |Hx]; [exists b; split; [left|]; auto|]. destruct (IH x Hx Kx) as (y & Y1 & Y2). exists y. split; [right|]; auto.
  - destruct Hx as [<- |Hx]; [contradiction|]. apply IH; auto.
Qed.

(** C217: computed in doubles, the times still go along one map that hits the breakpoints exactly,
    stays at the ends outside, keeps the order inside a zone and is off the exact image by less than
    one part in 10^14; the notes in range whose computed times keep a length are carried, with
    their payload; every note whose exact new length is above that rounding is one of them. *)
Theorem C217_notes : forall (N B C K L : Type) r downs snap tempi orig new (p : piece N B C K L), orig <> [] -> enough orig new -> times_used new -> exists m g,
  breakpoints orig new m /\ ascending m /\ warps m g /\
  let p' := snd (adjust_times_f r downs snap tempi orig new p) in
  Forall2 (carried (fun n => fst (begins m) <= an_start n /\ an_end n <= fst (ends m) /\ g (an_start n) < g (an_end n))
                   (fun n n' => an_start n' == g (an_start n) /\ an_end n' == g (an_end n) /\ an_data n' = an_data n /\ 0 <= an_start n' < an_end n'))
    (p_notes p) (p_notes p') /\
  (forall i l n a b, nth_error (p_notes p) i = Some l -> In n l -> fst (begins m) <= an_start n -> an_end n <= fst (ends m) ->
     image m (an_start n) a -> image m (an_end n) b -> 2 * warp_error * b < b - a ->
     exists l' n', nth_error (p_notes p') i = Some l' /\ In n' l' /\ an_data n' = an_data n /\ an_start n' == g (an_start n) /\ an_end n' == g (an_end n)).
Proof.
  intros TN TB TC TK TL r downs snap tempi orig new p NE LG U. destruct (long_ok_f orig new NE LG U) as (m & E & NM & B & A & P & D). exists m, (interp_f m).
  split; auto. split; [split; auto|]. pose proof (interp_warps m NM A P D) as W. split; [exact W|].
  destruct (adjust_parts_f _ _ _ _ _ r downs snap tempi orig new p m E NM) as (P1 & _). cbv zeta. rewrite P1. cbn [moved_f p_notes].
  destruct (ends_eq' m) as (E1 & E2 & E3 & E4).
  assert (CA : Forall2 (carried (fun n => fst (begins m) <= an_start n /\ an_end n <= fst (ends m) /\ interp_f m (an_start n) < interp_f m (an_end n))
                   (fun n n' => an_start n' == interp_f m (an_start n) /\ an_end n' == interp_f m (an_end n) /\ an_data n' = an_data n /\ 0 <= an_start n' < an_end n'))
    (p_notes p) (map (adjust_notes_f m) (p_notes p))).
  { apply F2_map. intro l. eapply carried_impl; [| |apply notes_carried_f].
    - intro n. cbn beta. rewrite E1, E3. rewrite !pos_nonneg by auto. reflexivity.
    - intros n n' (_ & _ & K) (J1 & J2 & J3). cbn beta in *. rewrite J1, J2. rewrite !pos_nonneg in * by auto. destruct (interp_near m (an_start n) A P) as [G _]. repeat split; try reflexivity; auto. }
  split; [exact CA|]. intros i l n a b Hi Hn H1 H2 Ia Ib LEN.
  destruct W as (_ & _ & _ & W & _). pose proof (W _ _ Ia) as Wa. pose proof (W _ _ Ib) as Wb.
  pose proof (image_unique m _ _ _ A NM Ia (interp_image m _ A)) as Ua. pose proof (image_unique m _ _ _ A NM Ib (interp_image m _ A)) as Ub.
  assert (Na : 0 <= a) by (rewrite Ua; destruct (interp_near m (an_start n) A P) as (_ & X & _); exact X).
  assert (Nb : 0 <= b) by (rewrite Ub; destruct (interp_near m (an_end n) A P) as (_ & X & _); exact X).
  destruct (within_bounds _ _ Na Wa) as [_ Va]. destruct (within_bounds _ _ Nb Wb) as [Vb _].
  assert (LT : interp_f m (an_start n) < interp_f m (an_end n)).
  { destruct warp_e as [X1 X2]. assert (a <= b) by (assert (0 <= 2 * warp_error * b) by (apply Qmult_le_0_compat; auto; apply Qmult_le_0_compat; auto; discriminate); lra).
    assert (a * warp_error <= b * warp_error) by (apply Qmult_le_compat_r; auto). set (ea := a * warp_error) in *. set (eb := b * warp_error) in *. assert (2 * warp_error * b == 2 * eb) by (unfold eb; ring). clearbody ea eb. lra. }
  assert (NTH : nth_error (map (adjust_notes_f m) (p_notes p)) i = Some (adjust_notes_f m l)) by (apply map_nth_error; auto).
  assert (CL : carried (fun n => fst (begins m) <= an_start n /\ an_end n <= fst (ends m) /\ interp_f m (an_start n) < interp_f m (an_end n))
                   (fun n n' => an_start n' == interp_f m (an_start n) /\ an_end n' == interp_f m (an_end n) /\ an_data n' = an_data n /\ 0 <= an_start n' < an_end n') l (adjust_notes_f m l)).
  { clear -CA Hi NTH. revert Hi NTH. generalize (adjust_notes_f m l) as l'. revert i. induction CA as [|x y xs ys Hxy CA IH]; intros i l' Hi NTH; destruct i; cbn in *; try discriminate; [congruence|]. apply (IH i); auto. }
  destruct (carried_lookup _ _ _ _ _ _ CL n Hn (conj H1 (conj H2 LT))) as (n' & N1 & N2 & N3 & N4 & _). exists (adjust_notes_f m l), n'. auto.
Qed.
Print Assumptions C217_notes.

(** C217: pitch bends, control changes, key signatures and lyrics: taken in time order and moved,
    those landing strictly inside the new range stay, of those landing on its start only the
    latest; the result is in time order up to the rounding, and nothing whose exact image lies
    inside the new range by more than the rounding is lost. *)
Theorem C217_events : forall (N B C K L : Type) r downs snap tempi orig new (p : piece N B C K L), orig <> [] -> enough orig new -> times_used new -> exists m g,
  breakpoints orig new m /\ ascending m /\ warps m g /\
  let lo := snd (begins m) in let hi := snd (ends m) in
  let moved D (l l' : list (aevent D)) := retimed_in_order ae_time (fun e t => mkAE t (ae_data e)) g lo hi l l' /\ nearly_ordered ae_time l' /\
    forall e y, In e l -> image m (ae_time e) y -> lo < y - y * warp_error -> y + y * warp_error < hi -> In (mkAE (g (ae_time e)) (ae_data e)) l' in
  let p' := snd (adjust_times_f r downs snap tempi orig new p) in
  Forall2 (moved B) (p_bends p) (p_bends p') /\ Forall2 (moved C) (p_ccs p) (p_ccs p') /\ moved K (p_keys p) (p_keys p') /\ moved L (p_lyrics p) (p_lyrics p').
Proof.
  intros TN TB TC TK TL r downs snap tempi orig new p NE LG U. destruct (long_ok_f orig new NE LG U) as (m & E & NM & B & A & P & D). exists m, (interp_f m).
  split; auto. split; [split; auto|]. pose proof (interp_warps m NM A P D) as W. split; [exact W|]. cbv zeta.
  destruct (adjust_parts_f _ _ _ _ _ r downs snap tempi orig new p m E NM) as (_ & P2 & P3 & P4 & P5 & _). rewrite P2, P3, P4, P5. cbn [moved_f p_bends p_ccs p_keys p_lyrics].
  destruct (ends_eq' m) as (E1 & E2 & E3 & E4). rewrite <- E2, <- E4.
  assert (R : forall T (l : list (aevent T)), retimed_in_order ae_time (fun e t => mkAE t (ae_data e)) (interp_f m) (first_y m) (last_y m) l (adjust_events_f m l) /\
    nearly_ordered ae_time (adjust_events_f m l) /\
    forall e y, In e l -> image m (ae_time e) y -> first_y m < y - y * warp_error -> y + y * warp_error < last_y m -> In (mkAE (interp_f m (ae_time e)) (ae_data e)) (adjust_events_f m l)).
  { intros T l. pose proof (retimed_list_f (aevent T) ae_time (fun e t => mkAE t (ae_data e)) ltac:(reflexivity) m l) as RT. fold (adjust_events_f m l) in RT. split; [exact RT|]. split.
    - eapply retimed_order; try exact RT; auto.
    - intros e y He Iy Lo Hi. destruct RT as (s & h & PS & _ & -> & _). apply in_app_iff; right. apply in_map_iff. exists e. split; [reflexivity|]. apply filter_In. split; [apply (Permutation_in e (Permutation_sym PS)); auto|].
      destruct W as (_ & _ & _ & W & _). pose proof (W _ _ Iy) as Wy. pose proof (image_unique m _ _ _ A NM Iy (interp_image m _ A)) as Uy.
      assert (Ny : 0 <= y) by (rewrite Uy; destruct (interp_near m (ae_time e) A P) as (_ & X & _); exact X). destruct (within_bounds _ _ Ny Wy) as [V1 V2].
      apply andb_true_intro. split; apply Qltb_lt; lra. }
  split; [apply F2_map; auto|]. split; [apply F2_map; auto|]. auto.
Qed.
Print Assumptions C217_events.

(** C217: time signatures: moved like the other events; then, unless no downbeat is left, the last
    one listed that landed on or before the computed place of the first downbeat in range is put
    there (a 4/4 in front if there is none), and whatever landed before it is gone. *)
Theorem C217_signatures : forall (N B C K L : Type) r downs snap tempi orig new (p : piece N B C K L), orig <> [] -> enough orig new -> times_used new -> exists m g l1,
  breakpoints orig new m /\ ascending m /\ warps m g /\
  retimed_in_order ts_time (fun s t => mkTS (ts_num s) (ts_den s) t) g (snd (begins m)) (snd (ends m)) (p_sigs p) l1 /\ nearly_ordered ts_time l1 /\
  let sigs' := p_sigs (snd (adjust_times_f r downs snap tempi orig new p)) in
  ((forall x, In x downs -> x < fst (begins m)) -> sigs' = l1) /\
  (forall a x b, downs = a ++ x :: b -> (forall y, In y a -> y < fst (begins m)) -> fst (begins m) <= x ->
    ((forall t, In t l1 -> g x < ts_time t) /\ sigs' = mkTS 4 4 (g x) :: l1) \/
    exists k1 s0 k2, l1 = k1 ++ s0 :: k2 /\ ts_time s0 <= g x /\ (forall t, In t k2 -> g x < ts_time t) /\
      sigs' = filter (fun t => Qle_bool (g x) (ts_time t)) k1 ++ mkTS (ts_num s0) (ts_den s0) (g x) :: k2).
Proof.
  intros TN TB TC TK TL r downs snap tempi orig new p NE LG U. destruct (long_ok_f orig new NE LG U) as (m & E & NM & B & A & P & D).
  destruct (sigs_spec_f m downs (p_sigs p)) as (K2 & K3). exists m, (interp_f m), (adjust_list_f ts_time set_ts m (p_sigs p)).
  split; auto. split; [split; auto|]. split; [apply interp_warps; auto|].
  destruct (ends_eq' m) as (E1 & E2 & E3 & E4). rewrite <- E2, <- E4, <- E1.
  pose proof (retimed_list_f tsig ts_time set_ts ltac:(reflexivity) m (p_sigs p)) as RT. split; [exact RT|]. split; [eapply retimed_order; try exact RT; auto|]. cbv zeta.
  destruct (adjust_parts_f _ _ _ _ _ r downs snap tempi orig new p m E NM) as (_ & _ & _ & _ & _ & P6). rewrite P6. cbn [moved_f p_sigs]. split; auto.
Qed.
Print Assumptions C217_signatures.

(** C217: the tempo list behind the new tick scales is, entry by entry and up to rounding, one that
    conserves musical time exactly (C136); each zone still starts with an entry exactly at its new
    time; every tick scale written is the rounded scale of one of its tempi, the first on tick 0. *)
Theorem C217_tempi : forall (N B C K L : Type) r downs snap tempi orig new (p p' : piece N B C K L), (0 < r)%Z -> tempo_map tempi -> (forall x x', x <= x' -> snap x <= snap x') ->
  adjust_times_f r downs snap tempi orig new p = (Ok tt, p') -> times_used new -> exists m tempi' listed,
  breakpoints orig new m /\ tempo_map tempi' /\
  let pts := moving (map (fun c => (snap (fst c), snd c)) m) in
  (forall a b fa fb, fst (begins pts) <= a -> a <= b -> b <= fst (ends pts) ->
     image pts a fa -> image pts b fb -> quarters tempi' fa fb == quarters tempi a b) /\
  Forall2 entry_within listed tempi' /\
  (forall l c c' r', pts = l ++ c :: c' :: r' -> exists q, In (snd c, q) listed) /\
  (exists s q tl, p_scales p' = (0%Z, s) :: tl /\ scale_of r q s /\ snd (hd (0, 120) (lead tempi')) == q) /\
  (forall k s, In (k, s) (tl (p_scales p')) -> exists c, In c tempi' /\ scale_of r (snd c) s).
Proof.
  intros TN TB TC TK TL r downs snap tempi orig new p p' R T M H U.
  assert (PRE : orig <> [] /\ enough orig new).
  { destruct (C132_bad_times _ _ _ _ _ r downs snap tempi orig new p) as [[X|[e X]] _]; [exact X|]. exfalso. unfold adjust_times, adjust_times_f in *. destruct (time_map orig new) as [[|c m]|e']; try discriminate.
    destruct (new_scales_f _ _) as [s|e2] eqn:ES in H; [|discriminate]. destruct (new_scales _ _) as [s'|e3] eqn:ES' in X; [discriminate|]. apply err_is in ES' as E3. subst e3. apply map_err_index in ES'.
    assert (EM : new_tempi_f (map (fun c0 => (snap (fst c0), snd c0)) (c :: m)) tempi = []). { revert ES'. unfold new_tempi, new_tempi_f. destruct (progress _) as [|[x0 y0] r0]; auto. destruct tempi as [|[t0 q0] rest]; auto. destruct (skip_to x0 q0 rest) as [q rest']. destruct r0 as [|[x y] r0]; [reflexivity|]. cbn [zones]. destruct (inside _ _ _ _ _) as [l [? ?]]. discriminate. }
    rewrite EM in ES. discriminate. }
  destruct PRE as [NE LG]. destruct (long_ok_f orig new NE LG U) as (m & E & NM & B & A & P & D). rewrite (adjust_ok_f _ _ _ _ _ r downs snap tempi orig new p m E NM) in H.
  set (g := map (fun c => (snap (fst c), snd c)) m) in *. destruct (new_scales_f r (new_tempi_f g tempi)) as [s|e] eqn:ES; [|discriminate].
  cbv zeta in H. injection H as <-. cbn [p_scales].
  pose proof (grid_wasc snap m A M) as W. fold g in W.
  assert (PG : nonneg g) by (intros c Hc; subst g; apply in_map_iff in Hc as (d & <- & Hd); cbn [snd]; apply P; auto).
  pose proof (new_tempi_near g tempi W PG T) as F2.
  assert (LEN : (2 <= List.length (moving g))%nat).
  { destruct (Nat.lt_ge_cases (List.length (moving g)) 2) as [L|L]; auto. exfalso. apply (new_tempi_nil g tempi) in L; [|apply T]. rewrite L in F2. inversion F2 as [X|]. rewrite <- X in ES. discriminate. }
  destruct (new_tempi_spec g tempi W T LEN) as (N1 & N2 & N3 & _ & N4).
  exists m, (new_tempi g tempi), (new_tempi_f g tempi). split; auto. split; auto. cbv zeta. fold g.
  split; [destruct (ends_eq (moving g)) as (E1 & E2 & E3 & E4); rewrite <- E1, <- E3; exact N4|]. split.
  { clear -F2. induction F2 as [|a b l l' [K1 K2] F2 IH]; constructor; auto. split; [apply near6_within|apply near4_within]; auto. }
  split; [intros l c c' r' EQ; apply (new_tempi_starts g tempi l c c' r'); auto; apply T|].
  destruct N1 as (_ & _ & QP).
  destruct (new_tempi_f g tempi) as [|[t q] rest] eqn:EL; [discriminate|]. destruct (new_tempi g tempi) as [|[t' q'] rest'] eqn:EL'; [inversion F2|].
  inversion F2 as [|? ? ? ? [K1 K2] F2']; subst. cbn [fst snd] in K1, K2. pose proof (QP (t', q') (or_introl eq_refl)) as Q0. cbn [snd] in Q0.
  assert (SC : forall c c', near_entry c c' -> In c' ((t', q') :: rest') -> scale_of r (snd c') (tick_scale_f (snd c) r)).
  { intros c c' [_ X] Hc. unfold scale_of. apply near6_within. apply near_scale; auto. }
  assert (ZERO : Qeq_bool t 0 = Qeq_bool t' 0).
  { destruct K1 as (A1 & A2 & A3 & A4). destruct (Qeq_bool t 0) eqn:Z; symmetry.
    - apply Qeq_bool_iff in Z. apply Qeq_bool_iff. rewrite Z in A3. assert (lp 6 * 0 == 0) by ring. lra.
    - destruct (Qeq_bool t' 0) eqn:Z'; [|reflexivity]. apply Qeq_bool_iff in Z'. rewrite Z' in A4. assert (lp 6 * 0 == 0) by ring. assert (t == 0) by lra. apply Qeq_bool_iff in H0. congruence. }
  assert (MEM : forall c, In c ((t, q) :: rest) -> exists c', In c' ((t', q') :: rest') /\ scale_of r (snd c') (tick_scale_f (snd c) r)).
  { intros c Hc. assert (G : exists c', In c' ((t', q') :: rest') /\ near_entry c c').
    { clear -F2 Hc. revert Hc. induction F2 as [|a b l l' Kab F2 IH]; intro Hc; [contradiction|]. destruct Hc as [<- |Hc]; [exists b; split; [left|]; auto|]. destruct IH as (c' & X1 & X2); auto. exists c'. split; [right|]; auto. }
    destruct G as (c' & X1 & X2). exists c'. split; auto. }
  unfold new_scales_f in ES. cbn [lead]. rewrite ZERO in ES. destruct (Qeq_bool t' 0); injection ES as <-.
  - split.
    + exists (tick_scale_f q r), q'. eexists. split; [reflexivity|]. split; [apply (SC (t, q) (t', q')); [split; auto|left; auto]|reflexivity].
    + cbn [tl]. intros k s Hk. destruct (scales_members _ _ _ _ _ _ _ Hk) as (c & X1 & ->). apply MEM. right; auto.
  - split.
    + exists (tick_scale_f 120 r), 120. eexists. split; [reflexivity|]. split; [|reflexivity]. unfold scale_of. apply near6_within. apply near_scale; auto; [reflexivity|]. apply near_refl. discriminate.
    + cbn [tl]. intros k s Hk. destruct (scales_members r ((t, q) :: rest) 0 (tick_scale_f 120 r) 0 k s Hk) as (c & X1 & ->). apply MEM. auto.
Qed.
Print Assumptions C217_tempi.

(** C217: rounding changes nothing about when and how the call fails. *)
Theorem C217_failures : forall (N B C K L : Type) r downs snap tempi orig new (p : piece N B C K L),
  fst (adjust_times_f r downs snap tempi orig new p) = fst (adjust_times r downs snap tempi orig new p).
Proof.
  intros. unfold adjust_times, adjust_times_f. destruct (time_map orig new) as [[|c m]|e]; try reflexivity. set (g := map _ (c :: m)).
  assert (EM : new_tempi_f g tempi = [] <-> new_tempi g tempi = []).
  { unfold new_tempi, new_tempi_f. destruct (progress g) as [|[x0 y0] r0]; [tauto|]. destruct tempi as [|[t0 q0] rest]; [tauto|]. destruct (skip_to x0 q0 rest) as [q rest']. destruct r0 as [|[x y] r0]; [cbn; tauto|]. cbn [zones zones_f].
    destruct (inside_f _ _ _ _ _) as [l [? ?]]. destruct (inside _ _ _ _ _) as [l' [? ?]]. cbn [map]. split; discriminate. }
  destruct (new_scales_f r (new_tempi_f g tempi)) as [s|e] eqn:E1, (new_scales r (new_tempi g tempi)) as [s'|e'] eqn:E2; cbn [fst]; try reflexivity.
  - pose proof (err_is _ _ _ E2) as ->. apply map_err_index in E2. apply EM in E2. rewrite E2 in E1. discriminate.
  - apply new_scales_f_err in E1 as [-> E1]. apply EM in E1. rewrite E1 in E2. discriminate.
  - apply new_scales_f_err in E1 as [-> _]. rewrite (err_is _ _ _ E2). reflexivity.
Qed.
Print Assumptions C217_failures.

(** The hypotheses are met, and rounding shows: breakpoints 0 -> 0.3 and 0.1 -> 0.9 send the last
    double before 0.1 past 0.9, so that an event there is dropped that the exact map keeps. *)
Definition tenth : Q := 3602879701896397 # 36028797018963968.
Definition before_tenth : Q := 7205759403792793 # 72057594037927936.
Definition threetenths : Q := 5404319552844595 # 18014398509481984.
Definition ninetenths : Q := 8106479329266893 # 9007199254740992.
Example C217_case :
  times_used [threetenths; ninetenths] /\ enough [0; tenth] [threetenths; ninetenths] /\
  ninetenths < interp_f [(0, threetenths); (tenth, ninetenths)] before_tenth /\
  adjust_events_f [(0, threetenths); (tenth, ninetenths)] [mkAE before_tenth tt] = [] /\
  List.length (adjust_events [(0, threetenths); (tenth, ninetenths)] [mkAE before_tenth tt]) = 1%nat /\
  List.length (adjust_notes_f [(0, threetenths); (tenth, ninetenths)] [mkAN 0 tenth tt]) = 1%nat.
Proof.
  split; [|split; [|vm_compute; auto 6]].
  - intros y [<- |[<- |[]]]; split; try discriminate; vm_compute; reflexivity.
  - intros i x [H _]. destruct i as [|[|i]]; cbn; try lia. destruct i; discriminate.
Qed.
(** A call that succeeds: 0..1 at 120 stretched to 0..2 and 1..2 to 2..2.3. *)
Example C217_scales_case : exists s1 s2,
  p_scales (snd (adjust_times_f 220 [] (fun x => x) [(0, 120)] [0; 1; 2] [0; 2; 23 # 10] (mkPiece (N := unit) (B := unit) (C := unit) (K := unit) (L := unit) [] [] [] [] [] [] []))) = [(0%Z, s1); (440%Z, s2)] /\
  s2 < s1 /\ fst (adjust_times_f 220 [] (fun x => x) [(0, 120)] [0; 1; 2] [0; 2; 23 # 10] (mkPiece (N := unit) (B := unit) (C := unit) (K := unit) (L := unit) [] [] [] [] [] [] [])) = Ok tt.
Proof. eexists. eexists. vm_compute. split; [reflexivity|]. split; reflexivity. Qed.
