(** Properties C132-C137: adjust_times. *)
From Coq Require Import Sorted Permutation Lqa Lia.
From Verif Require Import PyBase L_Base M_Note M_Beats S_Beats M_Adjust S_Adjust L_Adjust L_Adjust2 L_Adjust3 L_Adjust4.
Open Scope Q_scope.

Lemma ends_eq : forall m, first_x m = fst (begins m) /\ first_y m = snd (begins m) /\ last_x m = fst (ends m) /\ last_y m = snd (ends m).
Proof. intros [|[x y] m]; auto. Qed.
(** new_times is long enough for every original time that counts. *)
Definition enough (orig new : list Q) : Prop := forall i x, first_at orig i x -> (i < List.length new)%nat.

(** C132: the call fails at once, changing nothing, when there are no times or too few new times. *)
Theorem C132_bad_times : forall (N B C K L : Type) r downs snap tempi orig new (p : piece N B C K L),
  ((orig <> [] /\ enough orig new) \/ exists e, adjust_times r downs snap tempi orig new p = (Err e, p)) /\
  (~ enough orig new -> adjust_times r downs snap tempi orig new p = (Err IndexError, p)) /\
  (orig = [] -> (forall l, In l (p_notes p) -> l = []) -> adjust_times r downs snap tempi orig new p = (Err ValueError, p)) /\
  (orig = [] -> (exists l, In l (p_notes p) /\ l <> []) -> adjust_times r downs snap tempi orig new p = (Err IndexError, p)).
Proof.
  intros TN TB TC TK TL r downs snap tempi orig new p. destruct (time_map_err orig new) as [H1 H2].
  assert (NEN : ~ enough orig new -> time_map orig new = Err IndexError).
  { intro K. destruct (time_map orig new) as [m|e] eqn:E; [|rewrite (H1 e eq_refl); reflexivity]. exfalso. apply K. intros i x F. 
    destruct (Nat.lt_ge_cases i (List.length new)) as [L|L]; auto. assert (X : Ok m = Err IndexError) by (apply H2; eauto). discriminate. }
  assert (NIL : orig = [] -> time_map orig new = Ok []) by (intros ->; reflexivity).
  split; [|split; [|split]].
  - destruct orig as [|o orig]; [right; unfold adjust_times; rewrite (NIL eq_refl); eauto|].
    destruct (time_map (o :: orig) new) as [m|e] eqn:E; [left|right; unfold adjust_times; rewrite E; eauto].
    split; [discriminate|]. intros i x F. destruct (Nat.lt_ge_cases i (List.length new)) as [L|L]; auto. assert (X : Ok m = Err IndexError) by (apply H2; eauto). discriminate.
  - intro K. unfold adjust_times. rewrite (NEN K). reflexivity.
  - intros E K. unfold adjust_times. rewrite (NIL E).
    assert (F : forallb (fun l : list (anote TN) => match l with [] => true | _ => false end) (p_notes p) = true) by (apply forallb_forall; intros l Hl; rewrite (K l Hl); reflexivity). rewrite F. reflexivity.
  - intros E (l & K1 & K2). unfold adjust_times. rewrite (NIL E).
    destruct (forallb (fun l : list (anote TN) => match l with [] => true | _ => false end) (p_notes p)) eqn:F; [|reflexivity].
    rewrite forallb_forall in F. specialize (F l K1). destruct l; [congruence|discriminate].
Qed.
Print Assumptions C132_bad_times.
Example C132_bad_case : enough [0; 1; 1] [5; 6] /\ ~ enough [0; 1] [5] /\ first_at [0; 1; 1] 1 1.
Proof.
  split; [|split].
  - intros i x [H1 H2]. destruct i as [|[|[|i]]]; cbn; try lia; [|destruct i; discriminate]. exfalso. cbn in H1. injection H1 as <-. apply (H2 1%nat 1); [lia|reflexivity|reflexivity].
  - intro K. specialize (K 1%nat 1). cbn in K. assert (first_at [0; 1] 1 1); [|specialize (K H); lia]. split; [reflexivity|]. intros j x' Hj Hx. destruct j; [|lia]. injection Hx as <-. intro. discriminate.
  - split; [reflexivity|]. intros j x' Hj Hx. destruct j; [|lia]. injection Hx as <-. intro. discriminate.
Qed.

(** C133: otherwise there is one time map: breakpoints made strictly ascending in the original and
    weakly in the new times, every time with exactly one image, never swapping two times; notes
    inside the range are carried along it in order with their payload, those that lose their length
    are gone. *)
Theorem C133_notes : forall (N B C K L : Type) r downs snap tempi orig new (p : piece N B C K L), orig <> [] -> enough orig new -> exists m f,
  breakpoints orig new m /\ ascending m /\ (forall x, image m x (f x)) /\ (forall x y, image m x y -> y == f x) /\ (forall x x', x <= x' -> f x <= f x') /\
  Forall2 (carried (fun n => fst (begins m) <= an_start n /\ an_end n <= fst (ends m) /\ Qmaxb 0 (f (an_start n)) < Qmaxb 0 (f (an_end n)))
                   (fun n n' => an_start n' == Qmaxb 0 (f (an_start n)) /\ an_end n' == Qmaxb 0 (f (an_end n)) /\ an_data n' = an_data n /\ 0 <= an_start n' < an_end n'))
    (p_notes p) (p_notes (snd (adjust_times r downs snap tempi orig new p))).
Proof.
  intros TN TB TC TK TL r downs snap tempi orig new p NE LG. destruct (long_ok orig new NE LG) as (m & E & NM & B & A). exists m, (interp m).
  split; auto. split; [split; auto|]. split; [intro; apply interp_image; auto|]. split; [intros x y I; apply (image_unique m x); auto; apply interp_image; auto|].
  split; [intros; apply interp_mono; auto|]. destruct (adjust_parts _ _ _ _ _ r downs snap tempi orig new p m E NM) as (P1 & _). rewrite P1. cbn [moved p_notes].
  destruct (ends_eq m) as (E1 & E2 & E3 & E4). apply F2_map. intro l. eapply carried_impl; [| |apply notes_carried].
  - intro n. cbn beta. rewrite E1, E3. rewrite !max_pos. reflexivity.
  - intros n n' (_ & _ & K) (J1 & J2 & J3). cbn beta. rewrite !max_pos, J1, J2. repeat split; try reflexivity; auto. unfold pos. qc (Qltb 0 (interp m (an_start n))); lra.
Qed.
Print Assumptions C133_notes.

(** C134: pitch bends, control changes, key signatures and lyrics: in time order, those strictly
    inside the new range stay, of those landing on its start only the latest one. *)
Theorem C134_events : forall (N B C K L : Type) r downs snap tempi orig new (p : piece N B C K L), orig <> [] -> enough orig new -> exists m f,
  breakpoints orig new m /\ ascending m /\ (forall x, image m x (f x)) /\
  let moved D := retimed (@ae_time D) (fun e t => mkAE t (ae_data e)) f (snd (begins m)) (snd (ends m)) in
  let p' := snd (adjust_times r downs snap tempi orig new p) in
  Forall2 (moved B) (p_bends p) (p_bends p') /\ Forall2 (moved C) (p_ccs p) (p_ccs p') /\ moved K (p_keys p) (p_keys p') /\ moved L (p_lyrics p) (p_lyrics p').
Proof.
  intros TN TB TC TK TL r downs snap tempi orig new p NE LG. destruct (long_ok orig new NE LG) as (m & E & NM & B & A). exists m, (interp m).
  split; auto. split; [split; auto|]. split; [intro; apply interp_image; auto|]. cbv zeta.
  destruct (adjust_parts _ _ _ _ _ r downs snap tempi orig new p m E NM) as (_ & P2 & P3 & P4 & P5 & _). rewrite P2, P3, P4, P5. cbn [moved p_bends p_ccs p_keys p_lyrics].
  destruct (ends_eq m) as (E1 & E2 & E3 & E4). rewrite <- E2, <- E4.
  assert (R : forall D l, retimed (@ae_time D) (fun e t => mkAE t (ae_data e)) (interp m) (first_y m) (last_y m) l (adjust_events m l)) by (intros D l; apply retimed_list; auto).
  split; [apply F2_map; auto|]. split; [apply F2_map; auto|]. auto.
Qed.
Print Assumptions C134_events.

(** C135: time signatures move like the other events; then, unless no downbeat is left, the list
    starts at the image of the first downbeat in range, with the signature that was in force there
    (4/4 if none), followed by exactly the later ones. *)
Theorem C135_signatures : forall (N B C K L : Type) r downs snap tempi orig new (p : piece N B C K L), orig <> [] -> enough orig new -> exists m f l1,
  breakpoints orig new m /\ ascending m /\ (forall x, image m x (f x)) /\
  retimed ts_time (fun s t => mkTS (ts_num s) (ts_den s) t) f (snd (begins m)) (snd (ends m)) (p_sigs p) l1 /\
  let sigs' := p_sigs (snd (adjust_times r downs snap tempi orig new p)) in
  ((forall x, In x downs -> x < fst (begins m)) -> sigs' = l1) /\
  (forall a x b, downs = a ++ x :: b -> (forall y, In y a -> y < fst (begins m)) -> fst (begins m) <= x ->
    exists at_d s, sigs' = at_d ++ s :: filter (fun t => Qltb (f x) (ts_time t)) l1 /\
    (forall t, In t at_d -> ts_time t == f x /\ In t l1) /\ ts_time s = f x /\
    (((forall t, In t l1 -> f x < ts_time t) /\ ts_num s = 4%Z /\ ts_den s = 4%Z) \/
     exists k1 s0 k2, l1 = k1 ++ s0 :: k2 /\ ts_time s0 <= f x /\ (forall t, In t k2 -> f x < ts_time t) /\ ts_num s = ts_num s0 /\ ts_den s = ts_den s0)).
Proof.
  intros TN TB TC TK TL r downs snap tempi orig new p NE LG. destruct (long_ok orig new NE LG) as (m & E & NM & B & A).
  destruct (sigs_spec m downs (p_sigs p) A) as (l1 & K1 & K2 & K3). exists m, (interp m), l1.
  split; auto. split; [split; auto|]. split; [intro; apply interp_image; auto|].
  destruct (ends_eq m) as (E1 & E2 & E3 & E4). rewrite <- E2, <- E4, <- E1. split; [exact K1|]. cbv zeta.
  destruct (adjust_parts _ _ _ _ _ r downs snap tempi orig new p m E NM) as (_ & _ & _ & _ & _ & P6). rewrite P6. cbn [moved p_sigs]. split; auto.
Qed.
Print Assumptions C135_signatures.

Lemma grid_wasc : forall (snap : Q -> Q) m, asc m -> (forall x x', x <= x' -> snap x <= snap x') -> StronglySorted (fun a b => fst a <= fst b /\ snd a <= snd b) (map (fun c => (snap (fst c), snd c)) m).
Proof.
  intros snap m A M. apply sorted_to_map. cbn [fst snd]. induction A as [|a l S IH F]; constructor; auto. eapply Forall_impl; [|exact F]. intros b [H1 H2]. split; auto. apply M. lra.
Qed.
(** C136: musical time is conserved: with the original times on the tick grid, as many quarter notes
    lie between the images of two times as lay between the times before; the tick scales are this
    tempo list (120 before its first entry), each on the tick nearest to its exact position. *)
Theorem C136_musical_time : forall (N B C K L : Type) r downs snap tempi orig new (p p' : piece N B C K L), (0 < r)%Z -> tempo_map tempi -> (forall x x', x <= x' -> snap x <= snap x') ->
  adjust_times r downs snap tempi orig new p = (Ok tt, p') -> (forall y, In y new -> 0 <= y) -> exists m tempi' q0 rest tl t0,
  breakpoints orig new m /\ tempo_map tempi' /\
  (let pts := moving (map (fun c => (snap (fst c), snd c)) m) in forall a b fa fb, fst (begins pts) <= a -> a <= b -> b <= fst (ends pts) ->
     image pts a fa -> image pts b fb -> quarters tempi' fa fb == quarters tempi a b) /\
  lead tempi' = (t0, q0) :: rest /\ p_scales p' = (0%Z, 60 / (q0 * inject_Z r)) :: tl /\
  Forall2 (tick_at r (fun t => inject_Z r * quarters (lead tempi') 0 t)) (changes q0 rest) tl.
Proof.
  intros TN TB TC TK TL r downs snap tempi orig new p p' R T M H POS.
  destruct (C132_bad_times _ _ _ _ _ r downs snap tempi orig new p) as [[[NE LG]|[e X]] _]; [|rewrite X in H; discriminate].
  destruct (long_ok orig new NE LG) as (m & E & NM & B & A). rewrite (adjust_ok _ _ _ _ _ r downs snap tempi orig new p m E NM) in H.
  set (g := map (fun c => (snap (fst c), snd c)) m) in *. destruct (new_scales r (new_tempi g tempi)) as [s|e] eqn:ES; [|discriminate].
  cbv zeta in H. injection H as <-. cbn [p_scales].
  assert (LEN : (2 <= List.length (moving g))%nat).
  { destruct (Nat.lt_ge_cases (List.length (moving g)) 2) as [L|L]; auto. exfalso. apply (new_tempi_nil g tempi) in L; [|apply T]. rewrite L in ES. discriminate. }
  destruct (new_tempi_spec g tempi (grid_wasc snap m A M) T LEN) as (N1 & N2 & N3 & _ & N4).
  assert (F0 : 0 <= first_y g).
  { subst g. destruct m as [|[x y] m]; [congruence|]. cbn. destruct B as (_ & _ & B). destruct (B x y (or_introl eq_refl)) as (_ & (i & x' & _ & _ & K) & _). apply POS. eapply nth_error_In; eauto. }
  destruct (new_scales_spec r _ s R N1 ltac:(intros c Hc; specialize (N3 c Hc); lra) ES) as (t0 & q0 & rest & tl & K1 & K2 & K3).
  exists m, (new_tempi g tempi), q0, rest, tl, t0. split; auto. split; auto. split; [|auto]. cbv zeta. fold g.
  destruct (ends_eq (moving g)) as (E1 & E2 & E3 & E4). rewrite <- E1, <- E3. exact N4.
Qed.
Print Assumptions C136_musical_time.

(** C137: with usable times the call still fails, after the events have been moved, exactly when
    fewer than two breakpoints make progress; then only the tick scales are left as they were. *)
Theorem C137_late_failure : forall (N B C K L : Type) r downs snap tempi orig new (p : piece N B C K L), tempi <> [] -> orig <> [] -> enough orig new -> exists m,
  breakpoints orig new m /\ let '(res, p') := adjust_times r downs snap tempi orig new p in
  ((res = Ok tt /\ (2 <= List.length (moving (map (fun c => (snap (fst c), snd c)) m)))%nat) \/
   (res = Err IndexError /\ (List.length (moving (map (fun c => (snap (fst c), snd c)) m)) < 2)%nat /\ p_scales p' = p_scales p)).
Proof.
  intros TN TB TC TK TL r downs snap tempi orig new p T NE LG. destruct (long_ok orig new NE LG) as (m & E & NM & B & A). exists m. split; auto.
  rewrite (adjust_ok _ _ _ _ _ r downs snap tempi orig new p m E NM). set (g := map (fun c => (snap (fst c), snd c)) m).
  destruct (Nat.lt_ge_cases (List.length (moving g)) 2) as [L|L].
  - pose proof (proj2 (new_tempi_nil g tempi T) L) as K. rewrite K. cbn. right. auto.
  - destruct (new_scales r (new_tempi g tempi)) as [s|e] eqn:ES; [cbn; auto|]. exfalso. pose proof (err_is _ _ _ ES) as X. subst e. apply map_err_index in ES. apply (new_tempi_nil g tempi T) in ES. lia.
Qed.
Print Assumptions C137_late_failure.

(** A piece at 120, then 60 from second 2; stretched to twice its length after second 1. *)
Definition piece1 : piece Z Z Z Z Z := mkPiece [[mkAN 0 1 60%Z; mkAN 1 2 62%Z; mkAN 3 5 64%Z]] [[mkAE 0 1%Z; mkAE (1 # 2) 2%Z]] [[]] [mkAE 0 1%Z] [mkAE (5 # 2) 7%Z; mkAE 1 8%Z] [mkTS 3 4 0] [(0%Z, 1 # 440)].
Definition run1 : res unit * piece Z Z Z Z Z := adjust_times 220 [0; 3 # 2; 3] (fun x => x) [(0, 120); (2, 60)] [0; 1; 4] [0; 1; 7] piece1.
Example C133_case : enough [0; 1; 4] [0; 1; 7] /\ fst run1 = Ok tt /\
  map (map (fun n => (Qred (an_start n), Qred (an_end n), an_data n))) (p_notes (snd run1)) = [[(0, 1, 60%Z); (1, 3, 62%Z)]].
Proof.
  split; [|vm_compute; auto]. intros i x [H _]. assert (K : (i < List.length [0; 1; 4])%nat) by (apply (proj1 (nth_error_Some [0; 1; 4] i)); intro X; rewrite X in H; discriminate). exact K.
Qed.
Example C134_case : map (fun e => (Qred (ae_time e), ae_data e)) (p_lyrics (snd run1)) = [(1, 8%Z); (4, 7%Z)].
Proof. vm_compute. reflexivity. Qed.
Example C135_case : map (fun s => (ts_num s, ts_den s, Qred (ts_time s))) (p_sigs (snd run1)) = [(3%Z, 4%Z, 0)].
Proof. vm_compute. reflexivity. Qed.
Example C136_case : map (fun s => (fst s, Qred (snd s))) (p_scales (snd run1)) = [(0%Z, 1 # 440); (440%Z, 1 # 220); (880%Z, 1 # 110)] /\
  tempo_map [(0, 120); (2, 60)] /\ quarters [(0, 120); (2, 60)] 1 4 == 4.
Proof.
  split; [vm_compute; reflexivity|]. split; [|vm_compute; reflexivity]. split; [discriminate|]. split; [repeat constructor; cbn; discriminate|]. intros c [<- |[<- |[]]]; reflexivity.
Qed.
Example C137_case : fst (adjust_times 220 [0] (fun x => x) [(0, 120)] [1] [2] piece1) = Err IndexError /\
  p_lyrics (snd (adjust_times 220 [0] (fun x => x) [(0, 120)] [1] [2] piece1)) <> p_lyrics piece1.
Proof. vm_compute. split; [reflexivity|discriminate]. Qed.
