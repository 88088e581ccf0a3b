From Coq Require Import Lia Sorted Permutation Arith.
From Verif Require Import PyBase L_Base L_Sort M_Load S_Load M_Write S_Write S_Cut L_Load L_Load2 L_Load3 L_Load4 L_Write.
Open Scope Z_scope.

Definition rest_events (ch : Z) (i : winst) : list event :=
  flat_map (fun n => [(pn_start n, MOn ch (pn_pitch n) (pn_vel n)); (pn_end n, MOn ch (pn_pitch n) 0)]) (w_notes i) ++
  map (fun b => (fst b, MBend ch (snd b))) (w_bends i) ++
  map (fun c => (fst (fst c), MCC ch (snd (fst c)) (snd c))) (w_ccs i).
Lemma rest_In : forall ch i e, midi_inst i -> In e (rest_events ch i) ->
  (exists n, In n (w_notes i) /\ (e = (pn_start n, MOn ch (pn_pitch n) (pn_vel n)) \/ e = (pn_end n, MOn ch (pn_pitch n) 0))) \/
  (exists t p, e = (t, MBend ch p)) \/ (exists t c v, e = (t, MCC ch c v)).
Proof.
  intros ch i e M H. unfold rest_events in H. apply in_app_iff in H as [H|H].
  - apply in_flat_map in H as [n [Hn H]]. left. exists n. split; auto. destruct H as [<-|[<-|[]]]; auto.
  - right. apply in_app_iff in H as [H|H]; apply in_map_iff in H as [x [<- H]]; [left|right]; eauto.
Qed.
Definition tail_ev (ch : Z) (i : winst) : list event := py_sort event_lt (rest_events ch i).
Lemma body_eq : forall ch i, midi_inst i -> body ch i = (0, MProg ch (w_prog i)) :: tail_ev ch i.
Proof.
  intros ch i M. destruct (inst_vev ch i M) as [V G]. unfold body. change (inst_events ch i) with ((0, MProg ch (w_prog i)) :: rest_events ch i) in *.
  cbn [py_sort fold_right]. change (fold_right (insert_stable event_lt) [] (rest_events ch i)) with (tail_ev ch i).
  assert (P : Permutation (rest_events ch i) (tail_ev ch i)) by apply py_sort_perm.
  destruct (tail_ev ch i) as [|y r] eqn:E; [reflexivity|]. cbn [insert_stable].
  assert (In y (rest_events ch i)) as Hy by (apply (Permutation_in _ (Permutation_sym P)); left; auto).
  assert (event_lt y (0, MProg ch (w_prog i)) = false) as ->; [|reflexivity].
  rewrite Forall_forall in V. apply lt_order; [exact I|apply V; right; auto|].
  assert (0 <= fst y) by (apply G; right; auto). unfold in_order; cbn [fst snd].
  destruct (rest_In ch i y M Hy) as [[n [_ [->| ->]]]|[[t [p ->]]|[t [c [v ->]]]]]; cbn [fst snd kind] in *; lia.
Qed.
Lemma tail_perm : forall ch i, Permutation (rest_events ch i) (tail_ev ch i).
Proof. intros. apply py_sort_perm. Qed.
Lemma order_ascending : forall l, StronglySorted in_order l -> ascending l.
Proof.
  intros l S. induction S as [|x r S IH H]; constructor; auto. rewrite Forall_forall in *. intros y Hy. specialize (H y Hy). unfold in_order in H. lia.
Qed.
Definition Tail (ch last : Z) (i : winst) : list event := tail_ev ch i ++ [(last + 1, MEnd)].
Lemma track_shape2 : forall ch i, midi_inst i -> exists last,
  write_track ch i = name_ev i ++ (0, MProg ch (w_prog i)) :: Tail ch last i /\
  (forall e, In e (tail_ev ch i) -> 0 <= fst e <= last) /\ ascending (write_track ch i) /\ ascending (Tail ch last i).
Proof.
  intros ch i M. destruct (track_shape ch i M) as [last [E [B [x [Bx Ex]]]]]. exists last. rewrite (body_eq ch i M) in E, B.
  assert (ascending (body ch i ++ [(last + 1, MEnd)])) as A.
  { destruct (inst_vev ch i M) as [V _]. destruct (sort_order _ V) as [S _]. fold (body ch i) in S. apply SS_app_iff. split; [apply order_ascending; auto|].
    split; [constructor; [constructor|constructor]|]. intros a b Ha [<-|[]]. rewrite (body_eq ch i M) in Ha. apply B in Ha. simpl. lia. }
  assert (Hl : 0 <= last) by (rewrite (body_eq ch i M) in Bx; apply B in Bx; lia).
  split; [exact E|]. split; [intros e He; apply B; right; auto|]. split.
  - rewrite E. rewrite (body_eq ch i M) in A. apply SS_app_iff. split; [unfold name_ev; destruct (String.eqb _ _); repeat constructor|].
    split; [exact A|]. intros a b Ha Hb. unfold name_ev in Ha. destruct (String.eqb _ _); [destruct Ha|]. destruct Ha as [<-|[]]. cbn [fst].
    apply in_app_iff in Hb as [Hb|[<-|[]]]; [apply B in Hb; lia|simpl; lia].
  - rewrite (body_eq ch i M) in A. apply StronglySorted_inv in A as [A _]. exact A.
Qed.

(** where a note ends *)
Definition closes (ch n s : Z) (e : event) : Prop :=
  match snd e with
  | MOn c k v => if 0 <? v then s < fst e else c = ch /\ k = n /\ fst e <> s
  | MOff c k => c = ch /\ k = n /\ fst e <> s
  | MEnd => True
  | _ => False
  end.
Lemma ending_first : forall l pr ch n s e, ascending l -> (forall x, In x l -> ~ is_prog ch x) ->
  (forall x, In x l -> closes ch n s x -> e <= fst x) -> (exists x, In x l /\ closes ch n s x /\ fst x = e) -> ending pr ch n s l = Some (e, pr).
Proof.
  induction l as [|[t m] l IH]; intros pr ch n s e A NP H [y [I [Cy Ey]]]; [destruct I|]. apply StronglySorted_inv in A as [A1 A2]. rewrite Forall_forall in A2.
  assert (Hle : t <= e) by (destruct I as [I|I]; [subst y; cbn in Ey; lia|rewrite <- Ey; apply (A2 _ I)]).
  assert (C : closes ch n s (t, m) -> t = e) by (intros C; apply (H _ (or_introl eq_refl)) in C; simpl in C; lia).
  assert (R : ~ closes ch n s (t, m) -> ending pr ch n s l = Some (e, pr)).
  { intros Nc. apply IH; auto.
    - intros x Hx. apply NP. right; auto.
    - intros x Hx. apply H. right; auto.
    - exists y. destruct I as [I|I]; auto. subst y. contradiction. }
  unfold closes in C, R; cbn [snd fst] in C, R. cbn [ending]. destruct m as [x|c p|c k v|c k|c p|c k v| |]; auto.
  - destruct (Z.eqb_spec ch c) as [->|]; auto. exfalso. apply (NP _ (or_introl eq_refl)). exists p. reflexivity.
  - destruct (0 <? v).
    + destruct (Z.ltb_spec s t); [rewrite C by auto; auto|]. apply R. lia.
    + destruct (Z.eqb_spec c ch), (Z.eqb_spec k n), (Z.eqb_spec t s); cbn [andb negb]; try (apply R; lia). rewrite C by auto. auto.
  - destruct (Z.eqb_spec c ch), (Z.eqb_spec k n), (Z.eqb_spec t s); cbn [andb negb]; try (apply R; lia). rewrite C by auto. auto.
  - rewrite C by auto. auto.
Qed.
Lemma seq_same : forall l a b, struck_apart l -> In a l -> In b l -> pn_start a = pn_start b -> pn_pitch a = pn_pitch b -> a = b.
Proof.
  intros l a b D Ha Hb E1 E2. unfold struck_apart in D. apply in_split in Ha as [l1 [l2 ->]]. apply in_app_iff in Hb as [Hb|[Hb|Hb]]; auto; apply in_split in Hb as [m1 [m2 ->]]; exfalso.
  - apply (D m1 b m2 a l2); auto. rewrite <- app_assoc. reflexivity.
  - apply (D l1 a m1 b m2); auto.
Qed.
(** the notes cut *)
Definition ticks_of (i : winst) : list Z :=
  0 :: flat_map (fun n => [pn_start n; pn_end n]) (w_notes i) ++ map fst (w_bends i) ++ map (fun c => fst (fst c)) (w_ccs i).
Lemma busy_in : forall i t, busy i t <-> In t (ticks_of i).
Proof.
  intros i t. unfold busy, ticks_of. cbn [In]. rewrite !in_app_iff, in_flat_map, !in_map_iff. split.
  - intros [->|[[n [N E]]|[[b [B ->]]|[c [C ->]]]]]; auto.
    + right. left. exists n. cbn. intuition.
    + right. right. left. exists b; auto.
    + right. right. right. exists c; auto.
  - intros [<-|[[n [N E]]|[[b [<- B]]|[c [<- C]]]]]; auto.
    + right. left. exists n. cbn in E. intuition.
    + right. right. left. exists b; auto.
    + right. right. right. exists c; auto.
Qed.
Definition last_of (i : winst) : Z := fold_right Z.max 0 (ticks_of i).
Lemma max_ge : forall l x, In x l -> x <= fold_right Z.max 0 l.
Proof. induction l as [|y l IH]; intros x I; [destruct I|]. cbn [fold_right]. destruct I as [->|I]; [lia|]. specialize (IH x I). lia. Qed.
Lemma max_in : forall l, In 0 l -> In (fold_right Z.max 0 l) l.
Proof.
  assert (G : forall l, fold_right Z.max 0 l = 0 \/ In (fold_right Z.max 0 l) l).
  { induction l as [|y l IH]; auto. cbn [fold_right]. destruct (Z.max_spec y (fold_right Z.max 0 l)) as [[_ ->]|[_ ->]]; [destruct IH; auto; right; right; auto|right; left; auto]. }
  intros l I. destruct (G l) as [->|H]; auto.
Qed.
Lemma last_end : forall i, track_end i (last_of i + 1).
Proof.
  intros i. unfold track_end. split.
  - replace (last_of i + 1 - 1) with (last_of i) by lia. apply busy_in. apply max_in. left. auto.
  - intros t B. apply busy_in in B. apply max_ge in B. unfold last_of. lia.
Qed.
Lemma end_unique : forall i a b, track_end i a -> track_end i b -> a = b.
Proof. intros i a b [A1 A2] [B1 B2]. apply A2 in B1. apply B2 in A1. lia. Qed.
Definition stop_list (i : winst) (n : pnote) : list Z :=
  filter (fun t => pn_start n <? t) (map pn_start (w_notes i) ++ map pn_end (filter (fun m => pn_pitch m =? pn_pitch n) (w_notes i))).
Definition cutn (i : winst) (n : pnote) : pnote := mkP (pn_vel n) (pn_pitch n) (pn_start n) (fold_right Z.min (last_of i + 1) (stop_list i n)).
Lemma stop_list_in : forall i n t, In t (stop_list i n) <-> pn_start n < t /\ ((exists m, In m (w_notes i) /\ t = pn_start m) \/ (exists m, In m (w_notes i) /\ pn_pitch m = pn_pitch n /\ t = pn_end m)).
Proof.
  intros i n t. unfold stop_list. rewrite filter_In, in_app_iff, !in_map_iff, Z.ltb_lt. split.
  - intros [H L]. split; auto. destruct H as [[m [<- M]]|[m [<- M]]]; [left; eauto|right]. apply filter_In in M as [M E]. apply Z.eqb_eq in E. eauto.
  - intros [L H]. split; auto. destruct H as [[m [M ->]]|[m [M [E ->]]]]; [left; eauto|right]. exists m. split; auto. apply filter_In. split; auto. apply Z.eqb_eq; auto.
Qed.
Lemma min_le : forall d l, fold_right Z.min d l <= d /\ (forall x, In x l -> fold_right Z.min d l <= x) /\ (fold_right Z.min d l = d \/ In (fold_right Z.min d l) l).
Proof.
  intros d. induction l as [|y l (A & B & C)]; [cbn; split; [lia|split; [intros x []|auto]]|]. cbn [fold_right]. split; [lia|]. split.
  - intros x [->|I]; [lia|]. specialize (B x I). lia.
  - destruct (Z.min_spec y (fold_right Z.min d l)) as [[_ ->]|[_ ->]]; [right; left; auto|]. destruct C; auto. right; right; auto.
Qed.
Lemma cutn_spec : forall i n, In n (w_notes i) -> cut_note i n (cutn i n).
Proof.
  intros i n N. unfold cut_note, cutn. cbn [pn_vel pn_pitch pn_start pn_end]. split; auto. split; auto. split; auto.
  destruct (min_le (last_of i + 1) (stop_list i n)) as (A & B & C). split.
  - destruct C as [->|C].
    + split; [|right; right; apply last_end]. assert (K : busy i (pn_start n)) by (right; left; exists n; auto). apply busy_in, max_ge in K. unfold last_of. lia.
    + apply stop_list_in in C as [C1 C2]. split; auto. tauto.
  - intros t [L [H|[H|H]]]; [apply B; apply stop_list_in; auto|apply B; apply stop_list_in; auto|].
    rewrite (end_unique i t (last_of i + 1)); auto. apply last_end.
Qed.
Lemma cut_unique : forall i n a b, cut_note i n a -> cut_note i n b -> a = b.
Proof.
  intros i n [v k s e] [v' k' s' e'] (A1 & A2 & A3 & A4 & A5) (B1 & B2 & B3 & B4 & B5). cbn in *. subst. f_equal. apply A5 in B4. apply B5 in A4. lia.
Qed.
Lemma seq_apart : forall l, sequential l -> struck_apart l.
Proof. intros l [_ [D _]]. exact D. Qed.
Definition same_on (t k v : Z) (n : pnote) : bool := (pn_start n =? t) && (pn_pitch n =? k) && (pn_vel n =? v).
Definition found (ns : list pnote) (e : event) : list pnote :=
  match snd e with
  | MOn _ k v => if 0 <? v then match find (same_on (fst e) k v) ns with Some n => [n] | None => [] end else []
  | _ => []
  end.
Lemma found_on : forall ns n ch, struck_apart ns -> In n ns -> 0 < pn_vel n -> found ns (pn_start n, MOn ch (pn_pitch n) (pn_vel n)) = [n].
Proof.
  intros ns n ch Q Hn Hv. unfold found; cbn [snd fst]. destruct (Z.ltb_spec 0 (pn_vel n)); [|lia].
  destruct (find _ ns) as [m|] eqn:E.
  - apply find_some in E as [E1 E2]. unfold same_on in E2. apply andb_true_iff in E2 as [E2 _]. apply andb_true_iff in E2 as [E2 E3].
    apply Z.eqb_eq in E2, E3. f_equal. apply (seq_same ns); auto.
  - exfalso. apply (find_none _ _ E) in Hn. unfold same_on in Hn. rewrite !Z.eqb_refl in Hn. discriminate.
Qed.
Section Track.
Variables (ch last : Z) (i : winst).
Hypothesis M : midi_inst i.
Hypothesis Q : struck_apart (w_notes i).
Hypothesis LE : last = last_of i.
Hypothesis B : forall e, In e (tail_ev ch i) -> 0 <= fst e <= last.
Hypothesis A : ascending (Tail ch last i).
Lemma Tail_In : forall e, In e (Tail ch last i) ->
  (exists n, In n (w_notes i) /\ (e = (pn_start n, MOn ch (pn_pitch n) (pn_vel n)) \/ e = (pn_end n, MOn ch (pn_pitch n) 0))) \/
  (exists t p, e = (t, MBend ch p)) \/ (exists t c v, e = (t, MCC ch c v)) \/ e = (last + 1, MEnd).
Proof.
  intros e H. unfold Tail in H. apply in_app_iff in H as [H|[<-|[]]]; [|auto]. apply (Permutation_in _ (Permutation_sym (tail_perm ch i))) in H.
  destruct (rest_In ch i e M H) as [?|[?|?]]; auto.
Qed.
Lemma off_In : forall n, In n (w_notes i) -> In (pn_end n, MOn ch (pn_pitch n) 0) (tail_ev ch i).
Proof.
  intros n Hn. apply (Permutation_in _ (tail_perm ch i)). unfold rest_events. apply in_or_app. left. apply in_flat_map. exists n. split; auto. right; left; auto.
Qed.
Lemma on_In : forall n, In n (w_notes i) -> In (pn_start n, MOn ch (pn_pitch n) (pn_vel n)) (tail_ev ch i).
Proof.
  intros n Hn. apply (Permutation_in _ (tail_perm ch i)). unfold rest_events. apply in_or_app. left. apply in_flat_map. exists n. split; auto. left; auto.
Qed.
Lemma vel_pos : forall n, In n (w_notes i) -> 0 < pn_vel n.
Proof. intros n N. destruct M as [M1 _]. apply M1 in N. destruct N as [_ [N _]]. lia. Qed.
Lemma closes_stop : forall n x, In x (Tail ch last i) -> closes ch (pn_pitch n) (pn_start n) x -> pn_start n <= fst x -> In n (w_notes i) -> stops i n (fst x).
Proof.
  intros n x Hx C Hle Hn. destruct (Tail_In x Hx) as [[k [Hk [->| ->]]]|[[t [p ->]]|[[t [c [v ->]]]| ->]]]; unfold closes in C; cbn [fst snd] in *.
  - pose proof (vel_pos k Hk). destruct (Z.ltb_spec 0 (pn_vel k)); [|lia]. split; auto. left. eauto.
  - simpl in C. destruct C as [_ [C1 C2]]. split; [lia|]. right. left. eauto.
  - destruct C.
  - destruct C.
  - rewrite LE. destruct (last_end i) as [_ K]. split; [apply K; right; left; exists n; auto|]. right. right. apply last_end.
Qed.
Lemma stop_closes : forall n t, stops i n t -> exists x, In x (Tail ch last i) /\ closes ch (pn_pitch n) (pn_start n) x /\ fst x = t.
Proof.
  intros n t [L [[m [Hm ->]]|[[m [Hm [E ->]]]|H]]].
  - exists (pn_start m, MOn ch (pn_pitch m) (pn_vel m)). split; [unfold Tail; apply in_or_app; left; apply on_In; auto|]. split; auto.
    unfold closes. cbn [snd fst]. pose proof (vel_pos m Hm). destruct (Z.ltb_spec 0 (pn_vel m)); lia.
  - exists (pn_end m, MOn ch (pn_pitch m) 0). split; [unfold Tail; apply in_or_app; left; apply off_In; auto|]. split; auto.
    unfold closes. cbn [snd fst]. change (0 <? 0) with false. cbv iota. split; auto. split; auto. lia.
  - exists (last + 1, MEnd). split; [unfold Tail; apply in_or_app; right; left; auto|]. split; [exact I|]. cbn. rewrite LE. apply (end_unique i); auto. apply last_end.
Qed.
Lemma track_found : forall l2 done prog, Tail ch last i = done ++ l2 -> track_notes prog l2 = map (fun n => ((prog ch, ch), n)) (map (cutn i) (flat_map (found (w_notes i)) l2)).
Proof.
  induction l2 as [|[t m] l2 IH]; intros done prog E; [reflexivity|].
  assert (IH' : forall pr, track_notes pr l2 = map (fun n => ((pr ch, ch), n)) (map (cutn i) (flat_map (found (w_notes i)) l2))).
  { intros pr. apply (IH (done ++ [(t, m)])). rewrite <- app_assoc. exact E. }
  assert (Hin : In (t, m) (Tail ch last i)) by (rewrite E; apply in_or_app; right; left; auto).
  cbn [flat_map]. unfold found at 1; cbn [snd fst]. rewrite !map_app.
  destruct (Tail_In _ Hin) as [[n [Hn [X|X]]]|[[u [p X]]|[[u [c [v X]]]|X]]]; injection X as -> ->; cbn [track_notes]; rewrite IH'; auto.
  pose proof (vel_pos n Hn) as Hv.
  pose proof (found_on (w_notes i) n ch Q Hn Hv) as F. unfold found in F; cbn [snd fst] in F. destruct (Z.ltb_spec 0 (pn_vel n)); [|lia]. rewrite F.
  destruct (cutn_spec i n Hn) as (_ & _ & _ & ST & MIN).
  assert (ending (prog ch) ch (pn_pitch n) (pn_start n) l2 = Some (pn_end (cutn i n), prog ch)) as ->; [|reflexivity].
  rewrite E in A. apply SS_app_iff in A as [A1 [A2 A3]]. assert (A2' := A2). apply StronglySorted_inv in A2' as [A4 A5]. rewrite Forall_forall in A5.
  apply ending_first; auto.
  - intros x Hx [p Hp]. assert (Hx' : In x (Tail ch last i)) by (rewrite E; apply in_or_app; right; right; auto).
    destruct (Tail_In x Hx') as [[k [_ [->| ->]]]|[[u [p' ->]]|[[u [c [v ->]]]| ->]]]; discriminate Hp.
  - intros x Hx C. assert (Hx' : In x (Tail ch last i)) by (rewrite E; apply in_or_app; right; right; auto).
    apply MIN. exact (closes_stop n x Hx' C (A5 x Hx) Hn).
  - destruct (stop_closes n _ ST) as [x [Ho [C Ex]]]. exists x. split; auto. destruct ST as [ST _]. rewrite <- Ex in ST.
    rewrite E in Ho. apply in_app_iff in Ho as [Ho|[Ho|Ho]]; auto; exfalso.
    + specialize (A3 _ _ Ho (or_introl eq_refl)). simpl in A3. lia.
    + rewrite <- Ho in ST. cbn in ST. lia.
Qed.
Lemma found_perm : Permutation (flat_map (found (w_notes i)) (Tail ch last i)) (w_notes i).
Proof.
  unfold Tail. rewrite flat_map_app. cbn [flat_map found snd app]. rewrite app_nil_r.
  eapply Permutation_trans; [apply Permutation_flat_map; symmetry; apply tail_perm|].
  unfold rest_events. rewrite !flat_map_app.
  match goal with |- Permutation (?a ++ ?b ++ ?c) _ => assert (Eb : b = []) by (clear; induction (w_bends i); auto);
     assert (Ec : c = []) by (clear; induction (w_ccs i); auto); rewrite Eb, Ec end.
  rewrite !app_nil_r. assert (forall l, (forall n, In n l -> In n (w_notes i)) ->
    flat_map (found (w_notes i)) (flat_map (fun n => [(pn_start n, MOn ch (pn_pitch n) (pn_vel n)); (pn_end n, MOn ch (pn_pitch n) 0)]) l) = l) as W.
  2: { match goal with |- Permutation ?a _ => replace a with (w_notes i); [reflexivity|symmetry; apply W; auto] end. }
  induction l as [|n l IH]; intros H; [reflexivity|]. cbn [flat_map app]. rewrite IH by (intros; apply H; right; auto).
  assert (In n (w_notes i)) as Hn by (apply H; left; auto). rewrite found_on; auto. destruct M as [M1 _]. apply M1 in Hn. destruct Hn as [_ [Hn _]]. lia.
Qed.
End Track.
Lemma busy_body : forall ch i t, midi_inst i -> (busy i t <-> exists e, In e (body ch i) /\ fst e = t).
Proof.
  intros ch i t M. rewrite (body_eq ch i M). split.
  - intros [->|[[n [N E]]|[[b [B ->]]|[c [C ->]]]]].
    + eexists. split; [left; reflexivity|reflexivity].
    + destruct E as [-> | ->]; eexists; (split; [right|]); [apply on_In; eassumption|reflexivity|apply off_In; eassumption|reflexivity].
    + exists (fst b, MBend ch (snd b)). split; auto. right. apply (Permutation_in _ (tail_perm ch i)). unfold rest_events. rewrite !in_app_iff. right. left. apply in_map_iff. exists b; auto.
    + exists (fst (fst c), MCC ch (snd (fst c)) (snd c)). split; auto. right. apply (Permutation_in _ (tail_perm ch i)). unfold rest_events. rewrite !in_app_iff. right. right. apply in_map_iff. exists c; auto.
  - intros [e [[<-|H] <-]]; [left; auto|]. apply (Permutation_in _ (Permutation_sym (tail_perm ch i))) in H. unfold rest_events in H. rewrite !in_app_iff in H. destruct H as [H|[H|H]].
    + apply in_flat_map in H as [n [N [<-|[<-|[]]]]]; right; left; exists n; auto.
    + apply in_map_iff in H as [b [<- B]]. right. right. left. exists b; auto.
    + apply in_map_iff in H as [c [<- C]]. right. right. right. exists c; auto.
Qed.
Lemma track_shape3 : forall ch i, midi_inst i ->
  write_track ch i = name_ev i ++ (0, MProg ch (w_prog i)) :: Tail ch (last_of i) i /\
  (forall e, In e (tail_ev ch i) -> 0 <= fst e <= last_of i) /\ ascending (write_track ch i) /\ ascending (Tail ch (last_of i) i).
Proof.
  intros ch i M. destruct (track_shape ch i M) as [last' [E' [B' [x [X1 X2]]]]].
  assert (last' = last_of i).
  { assert (busy i last') as H1 by (apply (busy_body ch i last' M); eauto). apply busy_in, max_ge in H1. fold (last_of i) in H1.
    destruct (last_end i) as [H2 _]. replace (last_of i + 1 - 1) with (last_of i) in H2 by lia. apply (busy_body ch i _ M) in H2 as [e [H2 H3]]. apply B' in H2. lia. }
  subst last'. destruct (track_shape2 ch i M) as [last [E [B [A1 A2]]]]. assert (last = last_of i).
  { rewrite E', (body_eq ch i M) in E. cbn [app] in E. apply app_inv_head in E. injection E as E. unfold Tail in E. apply app_inj_tail in E as [_ E]. injection E as E. lia. }
  subst last. auto.
Qed.
