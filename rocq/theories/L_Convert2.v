(** Lemmas on to_pretty_midi: the parts of the result. *)
From Coq Require Import Lqa Lia Sorted Permutation.
From Verif Require Import PyBase L_Base M_Beats L_Beats5 M_Adjust S_Adjust L_Adjust L_Adjust2 L_Adjust3 L_Adjust4 M_SortedDict M_Note L_Note M_Events M_Seq L_Seq M_Seqs M_Ticks S_Ticks L_Ticks M_Load M_Write M_Meta M_Song M_Reader M_Pipe M_Tempi S_Tempi L_Tempi M_Convert S_Convert L_Convert.
Open Scope Z_scope.

Lemma py_sort_map : forall A B (h : A -> B) (lt : A -> A -> bool) (lt' : B -> B -> bool), (forall a b, lt' (h a) (h b) = lt a b) ->
  forall l, py_sort lt' (map h l) = map h (py_sort lt l).
Proof.
  intros A B h lt lt' H l. unfold py_sort. induction l as [|a l IH]; cbn [map fold_right]; auto. rewrite IH. generalize (fold_right (insert_stable lt) [] l). clear IH l. intro l.
  induction l as [|b l IH]; cbn [map insert_stable]; auto. rewrite H. destruct (lt b a); cbn [map]; [rewrite IH|]; reflexivity.
Qed.
Lemma filter_map : forall A B (h : A -> B) (f : B -> bool) l, filter f (map h l) = map h (filter (fun a => f (h a)) l).
Proof. intros A B h f l. induction l as [|a l IH]; cbn; auto. destruct (f (h a)); cbn; rewrite IH; reflexivity. Qed.
Lemma last_map : forall A B (h : A -> B) l d, last (map h l) (h d) = h (last l d).
Proof. intros A B h l. induction l as [|a l IH]; intro d; cbn; auto. destruct l; cbn in *; auto. Qed.
Lemma filter_ext : forall A (f g : A -> bool) l, (forall a, f a = g a) -> filter f l = filter g l.
Proof. intros A f g l H. induction l as [|a l IH]; cbn; auto. rewrite H, IH. reflexivity. Qed.
Lemma adjust_list_map : forall A B (h : A -> B) time set time' set' m l, (forall a, time' (h a) = time a) -> (forall a t, set' (h a) t = h (set a t)) ->
  adjust_list time' set' m (map h l) = map h (adjust_list time set m l).
Proof.
  intros A B h time set time' set' m l H1 H2. unfold adjust_list. rewrite (py_sort_map _ _ h (fun a b => Qltb (time a) (time b))) by (intros; rewrite !H1; reflexivity).
  rewrite map_map. rewrite (map_ext _ (fun a => h (set a (interp m (time a))))) by (intro a; rewrite H1, H2; reflexivity). rewrite <- map_map.
  generalize (map (fun a => set a (interp m (time a))) (py_sort (fun a b => Qltb (time a) (time b)) l)). intro w. unfold keep_in_range. rewrite !filter_map.
  rewrite (filter_ext _ (fun a => Qeq_bool (time' (h a)) (first_y m)) (fun a => Qeq_bool (time a) (first_y m))) by (intro a; rewrite H1; reflexivity).
  rewrite (filter_ext _ (fun a => Qltb (first_y m) (time' (h a)) && Qltb (time' (h a)) (last_y m)) (fun a => Qltb (first_y m) (time a) && Qltb (time a) (last_y m))) by (intro a; rewrite H1; reflexivity).
  rewrite map_app. f_equal. destruct (filter (fun a => Qeq_bool (time a) (first_y m)) w) as [|a r]; cbn [map]; auto. rewrite last_map. reflexivity.
Qed.

(** One instrument after adjust_times. *)
Definition refit (m : list (Q * Q)) (i : sinst) : sinst :=
  mkSI (si_name i) (si_prog i) (si_drum i)
    (map (fun a => mkSN (fst (an_data a)) (snd (an_data a)) (an_start a) (an_end a)) (adjust_notes m (map (fun n => mkAN (sn_start n) (sn_end n) (sn_vel n, sn_pitch n)) (si_notes i))))
    (adjust_list fst (fun e t => (t, snd e)) m (si_bends i))
    (adjust_list (fun c => fst (fst c)) (fun e t => (t, snd (fst e), snd e)) m (si_ccs i)).
Lemma put_events_ok : forall m l,
  put_events l (map (adjust_notes m) (map (fun i => map (fun n => mkAN (sn_start n) (sn_end n) (sn_vel n, sn_pitch n)) (si_notes i)) l))
    (map (adjust_events m) (map (fun i => map (fun b => mkAE (fst b) (snd b)) (si_bends i)) l))
    (map (adjust_events m) (map (fun i => map (fun c => mkAE (fst (fst c)) (snd (fst c), snd c)) (si_ccs i)) l)) = map (refit m) l.
Proof.
  intros m l. induction l as [|i l IH]; cbn [map put_events]; auto. rewrite IH. f_equal. unfold refit. f_equal.
  - unfold adjust_events. rewrite (adjust_list_map _ _ (fun b : Q * Z => mkAE (fst b) (snd b)) fst (fun e t => (t, snd e))) by reflexivity. rewrite map_map. rewrite (map_ext _ (fun x => x)); [apply map_id|]. intros [a b]; reflexivity.
  - unfold adjust_events. rewrite (adjust_list_map _ _ (fun c : Q * Z * Z => mkAE (fst (fst c)) (snd (fst c), snd c)) (fun c => fst (fst c)) (fun e t => (t, snd (fst e), snd e))) by reflexivity. rewrite map_map. rewrite (map_ext _ (fun x => x)); [apply map_id|]. intros [[a b] c]; reflexivity.
Qed.
Lemma fit_parts : forall fuel raw a b sg1, convert_fit fuel raw a (Some b) = Ok (Some sg1) -> exists tempi p1 m s p2,
  get_tempo_changes (sg_pm raw) = (Ok tempi, p1) /\
  let e := piece_end tempi (tsigs (sg_meta raw)) (other_times raw) in
  time_map [0%Q; e] [clip 0 e (match a with Some v => v | None => 0%Q end); clip 0 e b] = Ok m /\ m <> [] /\
  (exists snap tempi2, new_scales (p_res p2) (new_tempi (map (fun c => (snap (fst c), snd c)) m) tempi2) = Ok s) /\
  sg_pm sg1 = mkPM (p_res p2) s (p_times (sg_pm sg1)) /\ sg_insts sg1 = map (refit m) (sg_insts raw).
Proof.
  intros fuel raw a b sg1 H. assert (K : bind (song_end raw) (fun x => let (e, sg1) := x in
      let a := match a with Some v => v | None => 0%Q end in
      adjust_song fuel sg1 [0%Q; e] [clip 0 e a; clip 0 e b]) = Ok (Some sg1)) by (destruct a; exact H). clear H.
  unfold song_end in K. destruct (get_tempo_changes (sg_pm raw)) as [[tempi|e] p1] eqn:G; [|discriminate]. cbn [bind] in K. cbv zeta in K.
  set (E := piece_end tempi (tsigs (sg_meta raw)) (other_times raw)) in *. unfold adjust_song in K. cbn [sg_pm sg_meta sg_insts] in K.
  destruct (get_tempo_changes p1) as [[tempi0|e] p2] eqn:G2; [|discriminate]. destruct (get_downbeats _ _ _ _ _) as [[downs|]|e]; cbn [bind] in K; try discriminate.
  destruct (time_map [0%Q; E] _) as [m|e] eqn:TM; cbn [bind] in K; [|discriminate]. destruct (time_to_tick p2 (last_x m)) as [k|e]; cbn [bind] in K; [|discriminate].
  destruct (update_table _ k) as [tab|e]; cbn [bind] in K; [|discriminate]. cbv zeta in K. set (p3 := mkPM _ _ tab) in K.
  destruct (mapM _ (map fst m)) as [u|e]; cbn [bind] in K; [|discriminate]. destruct (get_tempo_changes p3) as [[tempi3|e] p4] eqn:G3; [|discriminate].
  assert (NM : m <> []). { intros ->. unfold adjust_times in K. rewrite TM in K. discriminate. }
  set (snap := fun x => match snap_to p3 x with Ok v => v | Err _ => 0%Q end) in K.
  rewrite (adjust_ok _ _ _ _ _ _ _ _ _ _ _ _ m TM NM) in K. destruct (new_scales _ _) as [s|e] eqn:NS; [|discriminate]. cbv zeta in K. cbv beta iota in K.
  match type of K with context [update_table ?x ?y] => destruct (update_table x y) as [tab'|e] eqn:UT end; cbn [bind] in K; [|discriminate]. assert (X := f_equal (fun r => match r with Ok (Some v) => v | _ => sg1 end) K). cbn in X. subst sg1. clear K.
  exists tempi, p1, m, s, p4. split; auto. cbv zeta. fold E. split; auto. split; auto. split; [exists snap, tempi3; exact NS|]. split; [reflexivity|].
  cbn [sg_insts]. unfold of_piece. cbn [sg_insts p_notes p_bends p_ccs moved to_piece]. apply put_events_ok.
Qed.
Lemma two_points : forall e x y, (0 < e)%Q -> exists y', time_map [0%Q; e] [x; y] = Ok [(0%Q, x); (e, y')] /\ (x <= y')%Q /\ ((x <= y)%Q -> y' = y) /\ ((y < x)%Q -> y' = x).
Proof.
  intros e x y E. unfold time_map, unique. cbn [with_new]. unfold py_sort. cbn [fold_right insert_stable fst].
  assert (L : Qltb e 0 = false) by (apply Qltb_ge; lra). rewrite L. cbn [drop_dups fst]. destruct (Qeq_bool 0 e) eqn:Q0; [apply Qeq_bool_iff in Q0; lra|].
  cbn [all_some bind map snd nondecreasing fst combine accumulate running_max]. destruct (Qle_bool 0 (y - x)) eqn:L2; cbn [andb].
  - apply Qle_bool_iff in L2. exists y. split; auto. split; [lra|]. split; auto. intros; lra.
  - apply Qle_bool_false in L2. exists (Qmaxb x y). split; auto. destruct (Qmaxb_spec x y) as [[? ->]|[? ->]]; split; try lra; split; auto; intros; try lra.
Qed.
Lemma line : forall e x y t, (0 < e)%Q -> (0 <= t)%Q -> (t <= e)%Q -> (interp [(0, x); (e, y)] t == x + (y - x) / e * t)%Q.
Proof.
  intros e x y t E T1 T2. unfold interp. replace (Qltb t 0) with false by (symmetry; apply Qltb_ge; lra). cbn [interp_from]. destruct (Qltb t e) eqn:L.
  - apply Qltb_lt in L. field. lra.
  - apply Qltb_ge in L. assert (t == e)%Q by lra. rewrite H. field. lra.
Qed.
Lemma slope : forall e x y, (0 < e)%Q -> (x < y)%Q -> (0 < (y - x) / e)%Q.
Proof. intros. apply Qlt_shift_div_l; auto. lra. Qed.
Definition stretched (e lo hi : Q) (n o : snote) : Prop :=
  sn_vel o = sn_vel n /\ sn_pitch o = sn_pitch n /\ (sn_start o == lo + (hi - lo) / e * sn_start n)%Q /\ (sn_end o == lo + (hi - lo) / e * sn_end n)%Q.
Lemma carried_map : forall A B A' B' (f : A -> A') (g : B -> B') (P : A' -> Prop) (R : A' -> B' -> Prop) l l',
  carried (fun a => P (f a)) (fun a b => R (f a) (g b)) l l' -> carried P R (map f l) (map g l').
Proof. intros A B A' B' f g P R l l' H. induction H; cbn; constructor; auto. Qed.
Lemma carried_unmap : forall A A' B (f : A -> A') (P : A' -> Prop) (R : A' -> B -> Prop) l l', carried P R (map f l) l' -> carried (fun a => P (f a)) (fun a b => R (f a) b) l l'.
Proof.
  intros A A' B f P R l. induction l as [|a l IH]; cbn; intros l' H; inversion H; subst; constructor; auto.
Qed.
Lemma carried_imp_in : forall A B (P P' : A -> Prop) (R R' : A -> B -> Prop) l l', (forall a, In a l -> (P a <-> P' a)) -> (forall a b, In a l -> P a -> R a b -> R' a b) ->
  carried P R l l' -> carried P' R' l l'.
Proof.
  intros A B P P' R R' l l' H1 H2 H. induction H.
  - constructor.
  - constructor; [apply H1; [left; auto|auto]|apply H2; auto; left; auto|]. apply IHcarried; intros; [apply H1; right; auto|apply H2; auto; right; auto].
  - constructor 3; [intro K; apply H; apply H1; [left; auto|auto]|]. apply IHcarried; intros; [apply H1; right; auto|apply H2; auto; right; auto].
Qed.
Lemma carried_right : forall A B B' (P : A -> Prop) (R : A -> B -> Prop) (R' : A -> B' -> Prop) (g : B -> B') l l', (forall a b, R a b -> R' a (g b)) -> carried P R l l' -> carried P R' l (map g l').
Proof. intros A B B' P R R' g l l' H C. induction C; cbn; constructor; auto. Qed.
Lemma notes_line : forall e x y i, (0 < e)%Q -> (0 <= x)%Q -> (x < y)%Q -> (forall n, In n (si_notes i) -> (0 <= sn_start n /\ sn_end n <= e)%Q) ->
  carried (fun n => sn_start n < sn_end n)%Q (stretched e x y) (si_notes i) (si_notes (refit [(0, x); (e, y)]%Q i)).
Proof.
  intros e x y i E X Y H. cbn [refit si_notes]. pose proof (notes_carried (Z * Z) [(0, x); (e, y)]%Q (map (fun n => mkAN (sn_start n) (sn_end n) (sn_vel n, sn_pitch n)) (si_notes i))) as K.
  apply carried_unmap in K. cbn [an_start an_end an_data] in K. change (first_x [(0, x); (e, y)]%Q) with 0%Q in K. change (last_x [(0, x); (e, y)]%Q) with e in K.
  assert (S := slope e x y E Y).
  assert (PS : forall t, (0 <= t)%Q -> (t <= e)%Q -> (pos (interp [(0, x); (e, y)] t) == x + (y - x) / e * t)%Q).
  { intros t T1 T2. pose proof (line e x y t E T1 T2) as L. assert (0 <= (y - x) / e * t)%Q by (apply Qmult_le_0_compat; lra). unfold pos. destruct (Qltb 0 _) eqn:Q0; [exact L|]. apply Qltb_ge in Q0. lra. }
  eapply carried_imp_in; [| |eapply (carried_right _ _ _ _ _ (fun (a : snote) (b : snote) => sn_vel b = sn_vel a /\ sn_pitch b = sn_pitch a /\ sn_start b = pos (interp [(0, x); (e, y)]%Q (sn_start a)) /\ sn_end b = pos (interp [(0, x); (e, y)]%Q (sn_end a))) (fun a => mkSN (fst (an_data a)) (snd (an_data a)) (an_start a) (an_end a))); [|exact K]].
  - intros n Hn. destruct (H n Hn) as [H1 H2]. cbn beta. split.
    + intros (_ & _ & L). destruct (Qlt_le_dec (sn_start n) (sn_end n)) as [|G]; auto. exfalso.
      destruct (Qlt_le_dec (sn_end n) 0) as [N|P].
      * assert (Z0 : (interp [(0, x); (e, y)] (sn_end n) == x)%Q). { unfold interp. replace (Qltb (sn_end n) 0) with true by (symmetry; apply Qltb_lt; auto). reflexivity. }
        assert (pos (interp [(0, x); (e, y)] (sn_end n)) == x)%Q by (unfold pos; destruct (Qltb 0 _) eqn:Q0; [exact Z0|apply Qltb_ge in Q0; lra]).
        destruct (Qlt_le_dec e (sn_start n)) as [F|F].
        -- assert (A : (pos (interp [(0, x); (e, y)] (sn_start n)) == y)%Q). { assert (Z1 : (interp [(0, x); (e, y)] (sn_start n) == y)%Q). { unfold interp. replace (Qltb (sn_start n) 0) with false by (symmetry; apply Qltb_ge; lra). cbn [interp_from]. replace (Qltb (sn_start n) e) with false by (symmetry; apply Qltb_ge; lra). reflexivity. } unfold pos. destruct (Qltb 0 _) eqn:Q0; [exact Z1|apply Qltb_ge in Q0; lra]. }
           lra.
        -- rewrite (PS (sn_start n)) in L by auto. assert (0 <= (y - x) / e * sn_start n)%Q by (apply Qmult_le_0_compat; lra). lra.
      * rewrite (PS (sn_end n)) in L by auto. destruct (Qlt_le_dec e (sn_start n)) as [F|F].
        -- assert (Z1 : (interp [(0, x); (e, y)] (sn_start n) == y)%Q). { unfold interp. replace (Qltb (sn_start n) 0) with false by (symmetry; apply Qltb_ge; lra). cbn [interp_from]. replace (Qltb (sn_start n) e) with false by (symmetry; apply Qltb_ge; lra). reflexivity. }
           assert (A : (pos (interp [(0, x); (e, y)] (sn_start n)) == y)%Q) by (unfold pos; destruct (Qltb 0 _) eqn:Q0; [exact Z1|apply Qltb_ge in Q0; lra]).
           assert (B : ((y - x) / e * sn_end n <= (y - x) / e * e)%Q) by (apply Qmult_le_l; auto). assert (C : ((y - x) / e * e == y - x)%Q) by (field; lra). lra.
        -- rewrite (PS (sn_start n)) in L by auto. assert (B : ((y - x) / e * sn_end n <= (y - x) / e * sn_start n)%Q) by (apply Qmult_le_l; auto). lra.
    + intro L. split; auto. split; auto. rewrite !PS by lra. assert (B : ((y - x) / e * sn_start n < (y - x) / e * sn_end n)%Q) by (apply Qmult_lt_l; auto). lra.
  - intros n o Hn (_ & _ & L) (J1 & J2 & J3 & J4). destruct (H n Hn) as [H1 H2]. unfold stretched. rewrite J1, J2, J3, J4. split; auto. split; auto.
    destruct (Qlt_le_dec e (sn_start n)) as [F|F].
    { exfalso. assert (Z1 : (interp [(0, x); (e, y)] (sn_start n) == y)%Q). { unfold interp. replace (Qltb (sn_start n) 0) with false by (symmetry; apply Qltb_ge; lra). cbn [interp_from]. replace (Qltb (sn_start n) e) with false by (symmetry; apply Qltb_ge; lra). reflexivity. }
      assert (A : (pos (interp [(0, x); (e, y)] (sn_start n)) == y)%Q) by (unfold pos; destruct (Qltb 0 _) eqn:Q0; [exact Z1|apply Qltb_ge in Q0; lra]).
      destruct (Qlt_le_dec (sn_end n) 0) as [N|P].
      - assert (Z0 : (interp [(0, x); (e, y)] (sn_end n) == x)%Q). { unfold interp. replace (Qltb (sn_end n) 0) with true by (symmetry; apply Qltb_lt; auto). reflexivity. }
        assert (pos (interp [(0, x); (e, y)] (sn_end n)) == x)%Q by (unfold pos; destruct (Qltb 0 _) eqn:Q0; [exact Z0|apply Qltb_ge in Q0; lra]). lra.
      - rewrite (PS (sn_end n)) in L by auto. assert (B : ((y - x) / e * sn_end n <= (y - x) / e * e)%Q) by (apply Qmult_le_l; auto). assert (C : ((y - x) / e * e == y - x)%Q) by (field; lra). lra. }
    rewrite (PS (sn_start n)) in L |- * by auto. split; [reflexivity|]. apply PS; auto.
    destruct (Qlt_le_dec (sn_end n) 0) as [N|P]; auto. exfalso.
    assert (Z0 : (interp [(0, x); (e, y)] (sn_end n) == x)%Q). { unfold interp. replace (Qltb (sn_end n) 0) with true by (symmetry; apply Qltb_lt; auto). reflexivity. }
    assert (pos (interp [(0, x); (e, y)] (sn_end n)) == x)%Q by (unfold pos; destruct (Qltb 0 _) eqn:Q0; [exact Z0|apply Qltb_ge in Q0; lra]). assert (0 <= (y - x) / e * sn_start n)%Q by (apply Qmult_le_0_compat; lra). lra.
  - intros a b (J1 & J2 & J3). cbn. rewrite J1, J2, J3. auto.
Qed.
