From Coq Require Import Lia Sorted Permutation.
From Verif Require Import PyBase L_Base M_Load S_Load.
Open Scope Z_scope.

Lemma ikey_eqb_spec : forall a b, reflect (a = b) (ikey_eqb a b).
Proof.
  intros [[p1 c1] t1] [[p2 c2] t2]. unfold ikey_eqb. destruct (Z.eqb_spec p1 p2), (Z.eqb_spec c1 c2), (Z.eqb_spec t1 t2); simpl; constructor; congruence.
Qed.
Lemma pair_eqb_spec : forall a b, reflect (a = b) (pair_eqb a b).
Proof.
  intros [p1 c1] [p2 c2]. unfold pair_eqb; simpl. destruct (Z.eqb_spec p1 p2), (Z.eqb_spec c1 c2); simpl; constructor; congruence.
Qed.
Lemma assoc_app : forall K V eqb (k : K) (l1 l2 : list (K * V)),
  assoc eqb k (l1 ++ l2) = match assoc eqb k l1 with Some v => Some v | None => assoc eqb k l2 end.
Proof.
  intros. unfold assoc. induction l1 as [|x l1 IH]; simpl; [reflexivity|]. destruct (eqb (fst x) k); [reflexivity|]. exact IH.
Qed.
Lemma assoc_cons : forall K V eqb (k k' : K) (v : V) l, assoc eqb k ((k', v) :: l) = if eqb k' k then Some v else assoc eqb k l.
Proof. intros. unfold assoc. simpl. destruct (eqb k' k); reflexivity. Qed.
Lemma assoc_In : forall K V eqb (k : K) (v : V) l, (forall a b, reflect (a = b) (eqb a b)) -> assoc eqb k l = Some v -> In (k, v) l.
Proof.
  intros K V eqb k v l R. induction l as [|[k' v'] l IH]; [discriminate|]. rewrite assoc_cons. destruct (R k' k) as [->|]; [intros [= ->]; left; auto|right; auto].
Qed.
Lemma assoc_None : forall K V eqb (k : K) (l : list (K * V)), (forall a b, reflect (a = b) (eqb a b)) ->
  assoc eqb k l = None <-> ~ In k (map fst l).
Proof.
  intros K V eqb k l R. induction l as [|[k' v'] l IH]; [split; auto|]. rewrite assoc_cons. simpl. destruct (R k' k) as [->|N].
  - split; [discriminate|intros H; exfalso; apply H; auto].
  - rewrite IH. split; [intros H [C|C]; auto|tauto].
Qed.

(** ** notes of instruments *)
Lemma inst_get_new : forall dc s pr ch tr k,
  inst_of (get_new dc s pr ch tr) k = match inst_of s k with
    | Some i => Some i
    | None => if ikey_eqb (pr, ch, tr) k then Some (mkPI pr (ch =? dc) (track_name s tr) []
        match assoc pair_eqb (ch, tr) (l_strag s) with Some c => c | None => List.length (l_cells s) end) else None end.
Proof.
  intros. unfold get_new, inst_of. destruct (assoc ikey_eqb (pr, ch, tr) (l_insts s)) eqn:E.
  - destruct (ikey_eqb_spec (pr, ch, tr) k) as [<-|]; [rewrite E; auto|]. destruct (assoc ikey_eqb k (l_insts s)); auto.
  - destruct (assoc pair_eqb (ch, tr) (l_strag s)); cbn [l_insts]; rewrite assoc_app; destruct (assoc ikey_eqb k (l_insts s)); auto; rewrite assoc_cons; reflexivity.
Qed.
Lemma inst_append : forall s k n k', inst_of (append_note s k n) k' =
  if ikey_eqb k' k then option_map (fun i => mkPI (pi_prog i) (pi_drum i) (pi_name i) (pi_notes i ++ [n]) (pi_cell i)) (inst_of s k')
  else inst_of s k'.
Proof.
  intros. unfold inst_of, append_note. cbn [l_insts]. induction (l_insts s) as [|[k0 i] l IH]; [destruct (ikey_eqb k' k); reflexivity|].
  simpl map. destruct (ikey_eqb_spec k0 k) as [->|N]; rewrite !assoc_cons; destruct (ikey_eqb_spec k k') as [->|N']; auto.
  - destruct (ikey_eqb_spec k' k'); [reflexivity|congruence].
  - destruct (ikey_eqb_spec k0 k') as [->|]; auto. destruct (ikey_eqb_spec k' k'); [congruence|]. contradiction.
  - destruct (ikey_eqb_spec k0 k') as [->|]; auto. destruct (ikey_eqb_spec k' k); [congruence|]. reflexivity.
Qed.
Lemma notes_emit : forall dc s prog tr ch n k,
  notes_of (emit dc s prog tr ch n) k = notes_of s k ++ (if ikey_eqb k (prog ch, ch, tr) then [n] else []).
Proof.
  intros. unfold notes_of, emit. rewrite inst_append, inst_get_new.
  destruct (ikey_eqb_spec k (prog ch, ch, tr)) as [->|N].
  - destruct (inst_of s (prog ch, ch, tr)); [reflexivity|]. destruct (ikey_eqb_spec (prog ch, ch, tr) (prog ch, ch, tr)); [reflexivity|congruence].
  - rewrite app_nil_r. destruct (inst_of s k); auto. destruct (ikey_eqb_spec (prog ch, ch, tr) k); [congruence|reflexivity].
Qed.

(** ** the emitted notes as a trace *)
Definition emitted := list ((Z * Z) * pnote).
Definition of_key (tr : Z) (k : ikey) (l : emitted) : list pnote :=
  let '(pr, ch, t) := k in if t =? tr then of_inst pr ch l else [].
Lemma of_inst_app : forall pr ch a b, of_inst pr ch (a ++ b) = of_inst pr ch a ++ of_inst pr ch b.
Proof. intros. unfold of_inst. rewrite filter_app, map_app. reflexivity. Qed.
Lemma of_key_app : forall tr k a b, of_key tr k (a ++ b) = of_key tr k a ++ of_key tr k b.
Proof. intros tr [[pr ch] t] a b. unfold of_key. destruct (t =? tr); [apply of_inst_app|reflexivity]. Qed.
Lemma notes_emit' : forall dc s prog tr ch n k,
  notes_of (emit dc s prog tr ch n) k = notes_of s k ++ of_key tr k [((prog ch, ch), n)].
Proof.
  intros. rewrite notes_emit. f_equal. destruct k as [[pr c] t]. unfold of_key, of_inst, ikey_eqb, pair_eqb; simpl.
  destruct (Z.eqb_spec t tr), (Z.eqb_spec pr (prog ch)), (Z.eqb_spec c ch); subst; simpl; rewrite ?Z.eqb_refl; simpl; auto;
  repeat match goal with |- context [?a =? ?b] => destruct (Z.eqb_spec a b); try congruence; simpl end; auto.
Qed.

Definition fin_em1 (prog : Z -> Z) (tick : Z) (eos : bool) (e : (Z * Z) * list (Z * Z)) : emitted :=
  match snd e with
  | (start, vel) :: _ => if (start <? tick) || eos then [((prog (fst (fst e)), fst (fst e)), mkP vel (snd (fst e)) start tick)] else []
  | [] => []
  end.
Definition fin_em prog tick eos (o : opens) : emitted := flat_map (fin_em1 prog tick eos) o.
Definition off_em (prog : Z -> Z) (tick ch note : Z) (o : opens) : emitted :=
  match assoc pair_eqb (ch, note) o with
  | None => []
  | Some v => map (fun x => ((prog ch, ch), mkP (snd x) note (fst x) tick)) (filter (fun x => negb (fst x =? tick)) v)
  end.
Definition ev_em (prog : Z -> Z) (o : opens) (e : event) : emitted :=
  match snd e with
  | MOn ch n v => if 0 <? v then fin_em prog (fst e) false o else off_em prog (fst e) ch n o
  | MOff ch n => off_em prog (fst e) ch n o
  | MEnd => fin_em prog (fst e) true o
  | _ => []
  end.
Lemma notes_finish : forall dc prog tr t eos o s k,
  notes_of (fst (finish_notes dc prog tr t eos s o)) k = notes_of s k ++ of_key tr k (fin_em prog t eos o).
Proof.
  intros dc prog tr t eos o. unfold finish_notes, fst. induction o as [|[[ch n] v] o IH]; intros s k; simpl.
  - destruct k as [[a b] c]; simpl. destruct (c =? tr); simpl; rewrite ?app_nil_r; reflexivity.
  - rewrite IH. unfold fin_em. simpl. rewrite of_key_app, app_assoc. f_equal. unfold fin_em1; simpl. destruct v as [|[st vel] v].
    + destruct k as [[a b] c]; simpl. destruct (c =? tr); simpl; rewrite ?app_nil_r; reflexivity.
    + destruct ((st <? t) || eos); [apply notes_emit'|]. destruct k as [[a b] c]; simpl. destruct (c =? tr); simpl; rewrite ?app_nil_r; reflexivity.
Qed.
Lemma of_key_nil : forall tr k, of_key tr k [] = [].
Proof. intros tr [[a b] c]; simpl. destruct (c =? tr); reflexivity. Qed.
Lemma notes_off : forall dc prog tr t ch n o s k,
  notes_of (fst (note_off dc prog tr t ch n s o)) k = notes_of s k ++ of_key tr k (off_em prog t ch n o).
Proof.
  intros. unfold note_off, off_em. destruct (assoc pair_eqb (ch, n) o) as [v|]; simpl; [|rewrite of_key_nil, app_nil_r; auto].
  revert s. induction (filter (fun x => negb (fst x =? t)) v) as [|x l IH]; intros s; simpl; [rewrite of_key_nil, app_nil_r; auto|].
  rewrite IH, notes_emit', <- app_assoc. f_equal. rewrite <- of_key_app. reflexivity.
Qed.
(** [step] only changes notes by what it emits. *)
Lemma notes_same : forall s s' k, l_insts s' = l_insts s -> notes_of s' k = notes_of s k.
Proof. intros s s' k H. unfold notes_of, inst_of. rewrite H. reflexivity. Qed.
Lemma get_cell_insts : forall s p c t, l_insts (fst (get_cell s p c t)) = l_insts s.
Proof. intros. unfold get_cell. destruct (assoc _ _ _); auto. destruct (assoc _ _ _); auto. Qed.
Lemma notes_step : forall dc tr s o prog e k,
  notes_of (fst (fst (step dc tr (s, o, prog) e))) k = notes_of s k ++ of_key tr k (ev_em prog o e).
Proof.
  intros dc tr s o prog [t m] k. unfold step, ev_em; simpl fst; simpl snd.
  destruct m; try (rewrite of_key_nil, app_nil_r; auto; fail).
  - destruct (0 <? velocity).
    + pose proof (notes_finish dc prog tr t false o s k) as H. exact H.
    + pose proof (notes_off dc prog tr t ch note o s k) as H. destruct (note_off dc prog tr t ch note s o). exact H.
  - pose proof (notes_off dc prog tr t ch note o s k) as H. destruct (note_off dc prog tr t ch note s o). exact H.
  - rewrite of_key_nil, app_nil_r. pose proof (get_cell_insts s (prog ch) ch tr) as H. destruct (get_cell s (prog ch) ch tr). simpl. apply notes_same. exact H.
  - rewrite of_key_nil, app_nil_r. pose proof (get_cell_insts s (prog ch) ch tr) as H. destruct (get_cell s (prog ch) ch tr). simpl. apply notes_same. exact H.
  - pose proof (notes_finish dc prog tr t true o s k) as H. exact H.
Qed.
(** next opens and programs do not depend on [s] *)
Definition next_o (prog : Z -> Z) (o : opens) (e : event) : opens :=
  let off ch n := match assoc pair_eqb (ch, n) o with
     | None => o
     | Some v => match filter (fun x => fst x =? fst e) v with [] => op_del o (ch, n) | l => op_set o (ch, n) l end end in
  match snd e with
  | MOn ch n v => if 0 <? v then let o' := filter (finish_kept (fst e) false) o in
        op_set o' (ch, n) (match assoc pair_eqb (ch, n) o' with Some v => v | None => [] end ++ [(fst e, v)])
     else off ch n
  | MOff ch n => off ch n
  | MEnd => filter (finish_kept (fst e) true) o
  | _ => o
  end.
Definition next_p (prog : Z -> Z) (e : event) : Z -> Z :=
  match snd e with MProg ch p => fun c => if c =? ch then p else prog c | _ => prog end.
Lemma step_next : forall dc tr s o prog e, exists s', step dc tr (s, o, prog) e = (s', next_o prog o e, next_p prog e).
Proof.
  intros dc tr s o prog [t m]. unfold step, next_o, next_p; simpl fst; simpl snd. unfold note_off, finish_notes.
  destruct m; try (eexists; reflexivity).
  - destruct (0 <? velocity); [eexists; reflexivity|]. destruct (assoc pair_eqb (ch, note) o); [|eexists; reflexivity].
    eexists. destruct (filter (fun x => fst x =? t) l); reflexivity.
  - destruct (assoc pair_eqb (ch, note) o); [|eexists; reflexivity].
    eexists. destruct (filter (fun x => fst x =? t) l); reflexivity.
  - destruct (get_cell s (prog ch) ch tr); eexists; reflexivity.
  - destruct (get_cell s (prog ch) ch tr); eexists; reflexivity.
Qed.
Fixpoint run_em (prog : Z -> Z) (o : opens) (evs : list event) : emitted :=
  match evs with [] => [] | e :: r => ev_em prog o e ++ run_em (next_p prog e) (next_o prog o e) r end.
Lemma notes_run : forall dc tr evs s o prog k,
  notes_of (fst (fst (fold_left (step dc tr) evs (s, o, prog)))) k = notes_of s k ++ of_key tr k (run_em prog o evs).
Proof.
  intros dc tr evs. induction evs as [|e evs IH]; intros s o prog k; cbn [fold_left run_em]; [rewrite of_key_nil, app_nil_r; auto|].
  destruct (step_next dc tr s o prog e) as [s' E]. rewrite E, IH. pose proof (notes_step dc tr s o prog e k) as H. rewrite E in H. simpl in H.
  rewrite H, of_key_app, app_assoc. reflexivity.
Qed.

(** ** the trace against the specification *)
Definition pend1 (prog : Z -> Z) (evs : list event) (e : (Z * Z) * list (Z * Z)) : emitted :=
  match snd e with
  | (s, v) :: _ => match ending (prog (fst (fst e))) (fst (fst e)) (snd (fst e)) s evs with
               | Some (t, pr) => [((pr, fst (fst e)), mkP v (snd (fst e)) s t)] | None => [] end
  | _ => [] end.
Definition pend prog evs (o : opens) : emitted := flat_map (pend1 prog evs) o.
Definition strikes (evs : list event) (ch n t : Z) : Prop := exists w, 0 < w /\ In (t, MOn ch n w) evs.
Definition oinv (o : opens) (evs : list event) : Prop :=
  NoDup (map fst o) /\
  forall ch n l, In ((ch, n), l) o -> exists s v, l = [(s, v)] /\ (forall e, In e evs -> s <= fst e) /\ ~ strikes evs ch n s.
Lemma oinv_filter : forall f o evs, oinv o evs -> oinv (filter f o) evs.
Proof.
  intros f o evs [N H]. split.
  - clear H. induction o as [|x o IH]; simpl; [constructor|]. inversion N; subst. destruct (f x); simpl; auto. constructor; auto.
    intro C. apply H1. apply in_map_iff in C as [y [Y1 Y2]]. apply filter_In in Y2 as [Y2 _]. rewrite <- Y1. apply in_map; auto.
  - intros ch n l Hl. apply filter_In in Hl as [Hl _]. auto.
Qed.
Lemma oinv_tail : forall o e evs, oinv o (e :: evs) -> oinv o evs.
Proof.
  intros o e evs [N H]. split; auto. intros ch n l Hl. destruct (H ch n l Hl) as [s [v [E [A B]]]]. exists s, v. split; auto.
  split; [intros x Hx; apply A; right; auto|]. intros [w [W1 W2]]. apply B. exists w. split; [auto|right; auto].
Qed.
Lemma pend_cons : forall prog r a b, pend prog r (a :: b) = pend1 prog r a ++ pend prog r b.
Proof. reflexivity. Qed.
Lemma pend_on : forall prog t ch n w r o, 0 < w -> oinv o ((t, MOn ch n w) :: r) ->
  Permutation (pend prog ((t, MOn ch n w) :: r) o) (fin_em prog t false o ++ pend prog r (filter (finish_kept t false) o)).
Proof.
  intros prog t ch n w r o Hw [_ H]. induction o as [|[[c k] l] o IH]; [constructor|].
  assert (IH' := IH (fun ch n l Hl => H ch n l (or_intror Hl))). clear IH.
  destruct (H c k l (or_introl eq_refl)) as [s [v [-> [A B]]]]. specialize (A _ (or_introl eq_refl)). simpl in A.
  rewrite pend_cons. change (fin_em prog t false ((c, k, [(s, v)]) :: o)) with (fin_em1 prog t false (c, k, [(s, v)]) ++ fin_em prog t false o).
  cbn [filter]. assert (K : finish_kept t false (c, k, [(s, v)]) = negb (s <? t)) by (unfold finish_kept; simpl; rewrite orb_false_r; auto).
  rewrite K. unfold fin_em1, pend1; cbn [fst snd ending]. rewrite orb_false_r.
  destruct (Z.ltb_spec 0 w); [|lia]. destruct (Z.ltb_spec s t) as [L|L]; cbn [negb app].
  - apply perm_skip. auto.
  - rewrite pend_cons. eapply Permutation_trans; [apply Permutation_app_head; exact IH'|].
    unfold pend1; cbn [fst snd]. rewrite !app_assoc. apply Permutation_app_tail. apply Permutation_app_comm.
Qed.
Lemma pend_end : forall prog t r o, (forall k l, In (k, l) o -> exists s v, l = [(s, v)]) ->
  pend prog ((t, MEnd) :: r) o = fin_em prog t true o /\ filter (finish_kept t true) o = [].
Proof.
  intros prog t r o H. induction o as [|[[c k] l] o IH]; [split; reflexivity|].
  destruct (IH (fun k l Hl => H k l (or_intror Hl))) as [I1 I2]. destruct (H (c, k) l (or_introl eq_refl)) as [s [v ->]].
  rewrite pend_cons, I1. change (fin_em prog t true ((c, k, [(s, v)]) :: o)) with (fin_em1 prog t true (c, k, [(s, v)]) ++ fin_em prog t true o).
  cbn [filter]. rewrite I2. unfold finish_kept, fin_em1, pend1; cbn [fst snd ending]. rewrite orb_true_r. auto.
Qed.
Lemma assoc_split : forall (o : opens) k l, NoDup (map fst o) -> assoc pair_eqb k o = Some l ->
  exists o1 o2, o = o1 ++ (k, l) :: o2 /\ ~ In k (map fst o1) /\ ~ In k (map fst o2).
Proof.
  intros o k l. induction o as [|[k' l'] o IH]; intros N E; [discriminate|]. rewrite assoc_cons in E. simpl in N. inversion N; subst.
  destruct (pair_eqb_spec k' k) as [->|Ne].
  - injection E as ->. exists [], o. repeat split; auto.
  - destruct (IH H2 E) as [o1 [o2 [-> [A B]]]]. exists ((k', l') :: o1), o2. repeat split; auto. simpl. intros [C|C]; auto.
Qed.
Lemma op_del_notin : forall o k, ~ In k (map fst o) -> op_del o k = o.
Proof.
  induction o as [|[k' l] o IH]; intros k H; simpl; auto. simpl in H. destruct (pair_eqb_spec k' k); [tauto|]. simpl. f_equal. apply IH. tauto.
Qed.
Lemma op_map_notin : forall (o : opens) k v, ~ In k (map fst o) -> map (fun e => if pair_eqb (fst e) k then (fst e, v) else e) o = o.
Proof.
  induction o as [|[k' l] o IH]; intros k v H; simpl; auto. simpl in H. destruct (pair_eqb_spec k' k); [tauto|]. f_equal. apply IH. tauto.
Qed.
Lemma op_set_split : forall o1 o2 k l v, ~ In k (map fst o1) -> ~ In k (map fst o2) -> op_set (o1 ++ (k, l) :: o2) k v = o1 ++ (k, v) :: o2.
Proof.
  intros. unfold op_set. assert (existsb (fun e => pair_eqb (fst e) k) (o1 ++ (k, l) :: o2) = true) as ->.
  { apply existsb_exists. exists (k, l). split; [apply in_or_app; right; left; auto|]. simpl. destruct (pair_eqb_spec k k); auto. }
  rewrite map_app. simpl. destruct (pair_eqb_spec k k); [|congruence]. rewrite !op_map_notin by auto. reflexivity.
Qed.
Lemma op_set_new : forall o k v, ~ In k (map fst o) -> op_set o k v = o ++ [(k, v)].
Proof.
  intros. unfold op_set. destruct (existsb _ o) eqn:E; auto. apply existsb_exists in E as [x [X1 X2]].
  destruct (pair_eqb_spec (fst x) k) as [<-|]; [|discriminate]. exfalso. apply H. apply in_map; auto.
Qed.
(** a release event *)
Definition is_off (m : msg) (ch n : Z) : Prop := m = MOff ch n \/ exists v, m = MOn ch n v /\ v <= 0.
Lemma ending_off : forall m ch n t r pr c k s, is_off m ch n ->
  ending pr c k s ((t, m) :: r) = if (ch =? c) && (n =? k) && negb (t =? s) then Some (t, pr) else ending pr c k s r.
Proof. intros m ch n t r pr c k s [->|[v [-> L]]]; simpl; auto. destruct (Z.ltb_spec 0 v); [lia|]. reflexivity. Qed.
Lemma pend_off_notin : forall prog m ch n t r o, is_off m ch n -> ~ In (ch, n) (map fst o) -> pend prog ((t, m) :: r) o = pend prog r o.
Proof.
  intros prog m ch n t r o Hm. induction o as [|[[c k] l] o IH]; intros H; auto. unfold pend in *. cbn [flat_map]. simpl in H. rewrite IH by tauto. f_equal.
  unfold pend1; cbn [fst snd]. destruct l as [|[s v] l]; auto. rewrite (ending_off m ch n) by auto.
  destruct (Z.eqb_spec ch c), (Z.eqb_spec n k); simpl; auto. exfalso. apply H. left. congruence.
Qed.
Definition off_next (o : opens) (t ch n : Z) : opens :=
  match assoc pair_eqb (ch, n) o with
     | None => o
     | Some v => match filter (fun x => fst x =? t) v with [] => op_del o (ch, n) | l => op_set o (ch, n) l end end.
Lemma pend_app : forall prog r a b, pend prog r (a ++ b) = pend prog r a ++ pend prog r b.
Proof. intros. unfold pend. apply flat_map_app. Qed.
Lemma pend_off : forall prog m ch n t r o, is_off m ch n -> oinv o ((t, m) :: r) ->
  Permutation (pend prog ((t, m) :: r) o) (off_em prog t ch n o ++ pend prog r (off_next o t ch n)) /\ oinv (off_next o t ch n) r.
Proof.
  intros prog m ch n t r o Hm I. assert (I' := oinv_tail _ _ _ I). destruct I as [N H]. unfold off_em, off_next.
  destruct (assoc pair_eqb (ch, n) o) as [l|] eqn:E.
  - destruct (assoc_split o (ch, n) l N E) as [o1 [o2 [-> [A B]]]].
    destruct (H ch n l) as [s [v [-> [C D]]]]; [apply in_or_app; right; left; auto|]. specialize (C _ (or_introl eq_refl)). simpl in C.
    simpl filter. rewrite pend_app, pend_cons, !(pend_off_notin prog m ch n) by auto.
    unfold pend1; cbn [fst snd]. rewrite (ending_off m ch n) by auto. rewrite !Z.eqb_refl. cbn [andb].
    rewrite (Z.eqb_sym t s). destruct (Z.eqb_spec s t) as [->|Ne]; cbn [negb app].
    + rewrite op_set_split by auto. split; [|exact I']. rewrite pend_app, pend_cons. apply Permutation_refl.
    + assert (pair_eqb (ch, n) (ch, n) = true) as PE by (unfold pair_eqb; simpl; rewrite !Z.eqb_refl; auto).
      unfold op_del. rewrite filter_app. cbn [filter fst]. rewrite PE. cbn [negb].
      assert (forall o' : opens, ~ In (ch, n) (map fst o') -> filter (fun e0 => negb (pair_eqb (fst e0) (ch, n))) o' = o') as W.
      { intros o' Ho'. apply (op_del_notin o' (ch, n) Ho'). }
      rewrite !W by auto. split.
      * rewrite pend_app. cbn [map]. cbn [app]. symmetry. apply (Permutation_middle (pend prog r o1) (pend prog r o2)).
      * assert (oinv (filter (fun e0 => negb (pair_eqb (fst e0) (ch, n))) (o1 ++ ((ch, n), [(s, v)]) :: o2)) r) as Y by (apply oinv_filter; auto).
        rewrite filter_app in Y. cbn [filter fst] in Y.
        rewrite PE in Y. cbn [negb] in Y. rewrite !W in Y by auto. auto.
  - apply assoc_None in E; [|apply pair_eqb_spec]. rewrite (pend_off_notin prog m ch n) by auto. split; [apply Permutation_refl|auto].
Qed.
Lemma no_double_tail : forall e evs, no_double (e :: evs) -> no_double evs.
Proof. intros e evs H l1 l2 l3 t ch n v w E. apply (H (e :: l1) l2 l3 t ch n v w). rewrite E; reflexivity. Qed.
Lemma next_o_off : forall prog o t m ch n, is_off m ch n -> next_o prog o (t, m) = off_next o t ch n.
Proof. intros prog o t m ch n [->|[v [-> L]]]; unfold next_o; simpl; auto. destruct (Z.ltb_spec 0 v); [lia|]. reflexivity. Qed.
Lemma ev_em_off : forall prog o t m ch n, is_off m ch n -> ev_em prog o (t, m) = off_em prog t ch n o.
Proof. intros prog o t m ch n [->|[v [-> L]]]; unfold ev_em; simpl; auto. destruct (Z.ltb_spec 0 v); [lia|]. reflexivity. Qed.
Lemma next_p_off : forall prog t m ch n, is_off m ch n -> next_p prog (t, m) = prog.
Proof. intros prog t m ch n [->|[v [-> L]]]; reflexivity. Qed.
Lemma track_notes_off : forall prog t m ch n r, is_off m ch n -> track_notes prog ((t, m) :: r) = track_notes prog r.
Proof. intros prog t m ch n r [->|[v [-> L]]]; simpl; auto. destruct (Z.ltb_spec 0 v); [lia|]. reflexivity. Qed.

Lemma run_spec : forall evs prog o, ascending evs -> no_double evs -> oinv o evs ->
  Permutation (run_em prog o evs) (pend prog evs o ++ track_notes prog evs).
Proof.
  induction evs as [|[t m] r IH]; intros prog o S ND I.
  - simpl. assert (pend prog [] o = []) as ->; [|constructor]. clear. induction o as [|[k [|[s v] l]] o IH]; auto.
  - assert (I' := oinv_tail _ _ _ I). apply StronglySorted_inv in S as [S1 S2]. rewrite Forall_forall in S2. simpl in S2.
    assert (ND' := no_double_tail _ _ ND).
    assert (OFF : forall ch n, is_off m ch n -> Permutation (run_em prog o ((t, m) :: r)) (pend prog ((t, m) :: r) o ++ track_notes prog ((t, m) :: r))).
    { intros ch n Hm. destruct (pend_off prog m ch n t r o Hm I) as [P1 P2]. cbn [run_em].
      rewrite (ev_em_off prog o t m ch n Hm), (next_o_off prog o t m ch n Hm), (next_p_off prog t m ch n Hm), (track_notes_off prog t m ch n r Hm).
      eapply Permutation_trans; [apply Permutation_app_head; apply IH; auto|]. rewrite app_assoc. apply Permutation_app_tail. symmetry; auto. }
    assert (IDLE : next_o prog o (t, m) = o -> next_p prog (t, m) = prog -> ev_em prog o (t, m) = [] -> pend prog ((t, m) :: r) o = pend prog r o ->
        track_notes prog ((t, m) :: r) = track_notes prog r -> Permutation (run_em prog o ((t, m) :: r)) (pend prog ((t, m) :: r) o ++ track_notes prog ((t, m) :: r))).
    { intros E1 E2 E3 E4 E5. cbn [run_em]. rewrite E1, E2, E3, E4, E5. apply IH; auto. }
    destruct m as [s|c p|ch n w|ch n|ch p|ch c v| |]; try (apply IDLE; reflexivity); try (apply (OFF ch n); left; reflexivity).
    + cbn [run_em]. unfold ev_em; cbn [snd app]. specialize (IH (next_p prog (t, MProg c p)) (next_o prog o (t, MProg c p)) S1 ND' I').
      eapply Permutation_trans; [exact IH|]. cbn [track_notes]. apply Permutation_app; [|apply Permutation_refl].
      change (next_o prog o (t, MProg c p)) with o.
      assert (pend (next_p prog (t, MProg c p)) r o = pend prog ((t, MProg c p) :: r) o) as ->; [|apply Permutation_refl].
      clear. unfold pend. apply flat_map_ext. intros [[a b] l]. reflexivity.
    + destruct (Z_lt_le_dec 0 w) as [L|L]; [|apply (OFF ch n); right; eauto].
      cbn [run_em]. change (next_p prog (t, MOn ch n w)) with prog.
      assert (EN : next_o prog o (t, MOn ch n w) = filter (finish_kept t false) o ++ [((ch, n), [(t, w)])]).
      { unfold next_o; cbn [fst snd]. destruct (Z.ltb_spec 0 w); [|lia].
        assert (~ In (ch, n) (map fst (filter (finish_kept t false) o))) as NI.
        { intro C. apply in_map_iff in C as [[[c k] l] [C1 C2]]. injection C1 as -> ->. apply filter_In in C2 as [C2 C3].
          destruct I as [_ I]. destruct (I ch n l C2) as [s [v [-> [A B]]]]. specialize (A _ (or_introl eq_refl)). simpl in A.
          unfold finish_kept in C3; simpl in C3. destruct (Z.ltb_spec s t); [discriminate|]. apply B. exists w. split; auto. left. f_equal. lia. }
        destruct (assoc pair_eqb (ch, n) (filter (finish_kept t false) o)) eqn:E.
        - exfalso. apply NI. apply assoc_In in E; [|apply pair_eqb_spec]. apply in_map_iff. exists ((ch, n), l). auto.
        - cbn [app]. apply op_set_new. auto. }
      rewrite EN. unfold ev_em; cbn [fst snd]. destruct (Z.ltb_spec 0 w); [|lia].
      eapply Permutation_trans.
      { apply Permutation_app_head. apply IH; auto. destruct (oinv_filter (finish_kept t false) o r I') as [F1 F2]. split.
        - rewrite map_app. simpl. apply (Permutation_NoDup (l := (ch, n) :: map fst (filter (finish_kept t false) o))).
          + apply Permutation_cons_append.
          + constructor; auto. intro C. apply in_map_iff in C as [[[c k] l] [C1 C2]]. injection C1 as -> ->. apply filter_In in C2 as [C2 C3].
            destruct I as [_ I]. destruct (I ch n l C2) as [s [v [-> [A B]]]]. specialize (A _ (or_introl eq_refl)). simpl in A.
            unfold finish_kept in C3; simpl in C3. destruct (Z.ltb_spec s t); [discriminate|]. apply B. exists w. split; auto. left. f_equal. lia.
        - intros c k l Hl. apply in_app_iff in Hl as [Hl|[Hl|[]]]; auto. injection Hl as <- <- <-. exists t, w. split; auto. split; auto.
          intros [w' [W1 W2]]. apply in_split in W2 as [r1 [r2 W2]]. apply (ND [] r1 r2 t ch n w w'); auto. rewrite W2; reflexivity. }
      rewrite pend_app. cbn [track_notes]. destruct (Z.ltb_spec 0 w); [|lia].
      rewrite !app_assoc. apply Permutation_app_tail. apply Permutation_app.
      * symmetry. apply pend_on; auto.
      * unfold pend; simpl. rewrite app_nil_r. unfold pend1; simpl. apply Permutation_refl.
    + cbn [run_em track_notes]. unfold ev_em; cbn [fst snd]. change (next_p prog (t, MEnd)) with prog.
      destruct (pend_end prog t r o) as [P1 P2].
      { intros k l Hl. destruct I as [_ I]. destruct k as [a b]. destruct (I a b l Hl) as [s [v [-> _]]]. eauto. }
      unfold next_o; cbn [fst snd]. rewrite P2. match goal with |- Permutation _ (?a ++ _) => change a with (pend prog ((t, MEnd) :: r) o) end. rewrite P1. apply Permutation_app_head. apply (IH prog []); auto. split; [constructor|intros ? ? ? []].
Qed.
