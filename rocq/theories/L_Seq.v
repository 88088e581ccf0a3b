From Coq Require Import Lia Lqa Qround QArith Sorted Permutation.
From Verif Require Import PyBase L_Base L_Sort M_Note M_Events M_Seq S_Note S_Seq L_Note L_Note2 L_Events.
Open Scope Z_scope.

(** ** max_end *)
Lemma fold_max_ge : forall l m, (m <= fold_left (fun m x => if Qltb m (n_end x) then n_end x else m) l m)%Q /\
  (forall n, In n l -> (n_end n <= fold_left (fun m x => if Qltb m (n_end x) then n_end x else m) l m)%Q) /\
  (fold_left (fun m x => if Qltb m (n_end x) then n_end x else m) l m = m \/
   exists n, In n l /\ n_end n = fold_left (fun m x => if Qltb m (n_end x) then n_end x else m) l m).
Proof.
  induction l as [|x l IH]; intro m; simpl.
  - split; [lra|]. split; [intros ? []|auto].
  - destruct (IH (if Qltb m (n_end x) then n_end x else m)) as [I1 [I2 I3]].
    qcase (Qltb m (n_end x)).
    + split; [lra|]. split; [intros n [<-|H]; auto; lra|]. right. destruct I3 as [I3|[n [H1 H2]]]; eauto.
    + split; [lra|]. split; [intros n [<-|H]; auto; lra|]. destruct I3 as [I3|[n [H1 H2]]]; eauto.
Qed.
Lemma max_end_spec : forall l, (forall n, In n l -> (n_end n <= max_end l)%Q) /\
  (l <> [] -> exists n, In n l /\ n_end n = max_end l) /\ (l = [] -> max_end l = 0%Q).
Proof.
  intros [|x l]; simpl.
  - split; [intros ? []|]. split; [congruence|auto].
  - destruct (fold_max_ge l (n_end x)) as [I1 [I2 I3]]. split; [intros n [<-|H]; auto|]. split; [|congruence].
    intros _. destruct I3 as [I3|[n [H1 H2]]]; eauto.
Qed.
Lemma max_end_latest : forall l, latest_end l (Qmaxb 0 (max_end l)).
Proof.
  intro l. destruct (max_end_spec l) as [M1 [M2 M3]]. unfold latest_end.
  destruct (Qmaxb_spec 0 (max_end l)) as [[H ->]|[H ->]].
  - split; auto. split; auto. destruct l as [|x l]; [left; rewrite M3; auto; reflexivity|].
    right. destruct M2 as [n [H1 H2]]; [discriminate|]. exists n. split; auto. rewrite H2; reflexivity.
  - split; [intros n Hn; specialize (M1 n Hn); lra|]. split; [lra|left; reflexivity].
Qed.
Lemma latest_unique : forall l t t', latest_end l t -> latest_end l t' -> (t == t')%Q.
Proof.
  intros l t t' [A [B C]] [A' [B' C']].
  assert (t <= t')%Q by (destruct C as [C|[n [H1 H2]]]; [lra|specialize (A' n H1); lra]).
  assert (t' <= t)%Q by (destruct C' as [C'|[n [H1 H2]]]; [lra|specialize (A n H1); lra]). lra.
Qed.

(** ** projections of q_put / q_set_total *)
Lemma notes_set_total : forall s v, q_notes (q_set_total s v) = q_notes s.
Proof. reflexivity. Qed.
Lemma instr_put : forall s l, q_instr (q_put s l) = q_instr s.
Proof. intros; unfold q_put. destruct (i_drum (q_instr s)); reflexivity. Qed.
Lemma notes_put : forall s l, q_notes (q_put s l) = l.
Proof. intros; unfold q_put, q_notes. destruct (i_drum (q_instr s)) eqn:E; simpl; rewrite E; reflexivity. Qed.
Lemma total_put : forall s l, q_total (q_put s l) = q_total s.
Proof. intros; unfold q_put. destruct (i_drum (q_instr s)); reflexivity. Qed.
Lemma res_put : forall s l, q_res (q_put s l) = q_res s.
Proof. intros; unfold q_put. destruct (i_drum (q_instr s)); reflexivity. Qed.
Lemma ccs_put : forall s l, q_ccs (q_put s l) = q_ccs s.
Proof. intros; unfold q_put. destruct (i_drum (q_instr s)); reflexivity. Qed.
Lemma bends_put : forall s l, q_bends (q_put s l) = q_bends s.
Proof. intros; unfold q_put. destruct (i_drum (q_instr s)); reflexivity. Qed.
Lemma notes_adjust : forall s, q_notes (q_adjust s) = q_notes s.
Proof. reflexivity. Qed.
Lemma adjust_latest : forall s, latest_end (q_notes (q_adjust s)) (q_total (q_adjust s)).
Proof. intro s. unfold q_adjust. rewrite notes_set_total. cbn [q_total q_set_total]. apply max_end_latest. Qed.
Lemma notes_set_notes : forall s l, q_notes (q_set_notes s l) = l.
Proof. intros; unfold q_set_notes. rewrite notes_set_total. apply notes_put. Qed.
Lemma set_notes_latest : forall s l, latest_end l (q_total (q_set_notes s l)).
Proof. intros. cbn [q_set_notes q_set_total q_total]. apply max_end_latest. Qed.
Lemma notes_new : forall l i r, q_notes (q_new l i r) = l.
Proof. intros; unfold q_notes, q_new; simpl. destruct (i_drum i); reflexivity. Qed.

(** ** C26 *)
Definition bounded (s : seq) : Prop := forall n, In n (q_notes s) -> (n_end n <= q_total s)%Q.
Lemma latest_bounded : forall s, latest_end (q_notes s) (q_total s) -> bounded s.
Proof. intros s [H _]; exact H. Qed.
Lemma put_bounded : forall s l v, (forall n, In n l -> (n_end n <= v)%Q) -> bounded (q_set_total (q_put s l) v).
Proof.
  intros s l v H n. rewrite notes_set_total, notes_put. intro Hn. cbn [q_total q_set_total].
  specialize (H n Hn). destruct (Qmaxb_max 0 v) as [? [? _]]. lra.
Qed.
Lemma extend_bounded : forall s l, bounded s -> bounded (q_set_total (q_put s (q_notes s ++ l)) (Qmaxb (q_total s) (max_end l))).
Proof.
  intros s l B. apply put_bounded. intros n Hn. destruct (Qmaxb_max (q_total s) (max_end l)) as [M1 [M2 _]].
  apply in_app_or in Hn as [Hn|Hn]; [specialize (B n Hn); lra|].
  pose proof (proj1 (max_end_spec l) n Hn). lra.
Qed.
Lemma q_do_bounded : forall s o, bounded s -> bounded (snd (q_do s o)).
Proof.
  intros s o B. destruct o; cbn [q_do snd].
  - unfold q_add_note. destruct (negb (n_instrument n =? i_num (q_instr s))); [exact B|].
    destruct (Qmaxb_max (q_total s) (n_end n)) as [M1 [M2 _]].
    destruct (n_drum n); cbn [snd]; intros m Hm; rewrite notes_set_total in Hm; cbn [q_total q_set_total];
      destruct (Qmaxb_max 0 (Qmaxb (q_total s) (n_end n))) as [M3 [M4 _]];
      unfold bounded, q_notes in *; cbn [q_instr q_pitched q_drums] in *; destruct (i_drum (q_instr s));
      try (apply in_app_or in Hm as [Hm|[<-|[]]]); try specialize (B m Hm); lra.
  - unfold q_append1. apply put_bounded. intros m Hm.
    destruct (Qmaxb_max (q_total s) (n_end n)) as [M1 [M2 _]].
    apply in_app_or in Hm as [Hm|[<-|[]]]; [specialize (B m Hm)|]; lra.
  - unfold q_extend. destruct l as [|x l]; [exact B|]. apply extend_bounded; auto.
  - apply latest_bounded. apply adjust_latest.
  - apply latest_bounded. rewrite notes_set_notes. apply set_notes_latest.
  - apply latest_bounded. unfold q_cut_in_place. rewrite notes_set_total.
    cbn [q_set_total q_total]. apply max_end_latest.
  - apply latest_bounded. apply adjust_latest.
  - unfold q_shift. destruct (q_is_quantized s); [exact B|]. cbn [snd]. apply put_bounded.
    rewrite total_put. intros n Hn. apply in_map_iff in Hn as [m [<- Hm]]. specialize (B m Hm). simpl. lra.
  - unfold q_merge. destruct (negb (i_eqb (q_instr s) (q_instr o)) || negb (q_res s =? q_res o)); [exact B|].
    destruct (negb (q_validate s)); [exact B|]. destruct (negb (q_validate o)); [exact B|].
    apply latest_bounded. apply adjust_latest.
  - unfold q_quantize. destruct (quantize_notes (q_notes s) sps amount (q_steps s)) as [[l|e] st]; [|exact B].
    destruct (quantize_ccs (q_ccs s) sps amount); [|exact B]. cbn [snd].
    apply latest_bounded. unfold with_ccs. 
    change (latest_end (q_notes (q_set_notes (with_steps s st) l)) (q_total (q_set_notes (with_steps s st) l))).
    rewrite notes_set_notes. apply set_notes_latest.
  - unfold q_as_note_seq. destruct (q_notes s) as [|x l] eqn:E; [exact B|]. cbn [snd].
    intros n. rewrite notes_put, total_put. intro Hn. apply B. rewrite E.
    apply (Permutation_in _ (Permutation_sym (py_sort_perm start_lt (x :: l)))). exact Hn.
  - exact B.
  - exact B.
Qed.
Lemma q_run_bounded : forall ops s, bounded s -> bounded (q_run s ops).
Proof. induction ops as [|o ops IH]; intros s B; simpl; auto. apply IH. apply q_do_bounded; auto. Qed.
Lemma total_bounds : forall notes i res ops n,
  let s := q_run (q_new notes i res) ops in
  In n (q_notes s) -> (n_end n <= q_total s)%Q.
Proof.
  intros notes i res ops n s. apply q_run_bounded. intros m Hm. rewrite notes_new in Hm.
  cbn [q_new q_total]. apply max_end_spec; auto.
Qed.
Lemma add_note_spec : forall s n,
  (n_instrument n <> i_num (q_instr s) -> q_add_note s n = (Err ValueError, s)) /\
  (n_instrument n = i_num (q_instr s) -> exists s', q_add_note s n = (Ok tt, s') /\
     q_pitched s' = q_pitched s ++ (if n_drum n then [] else [n]) /\
     q_drums s' = q_drums s ++ (if n_drum n then [n] else []) /\
     (q_total s <= q_total s')%Q /\ (n_end n <= q_total s')%Q /\
     q_instr s' = q_instr s /\ q_ccs s' = q_ccs s /\ q_bends s' = q_bends s).
Proof.
  intros s n. unfold q_add_note. split; intro H.
  - destruct (Z.eqb_spec (n_instrument n) (i_num (q_instr s))); [contradiction|reflexivity].
  - rewrite (proj2 (Z.eqb_eq _ _) H). cbn [negb]. eexists; split; [reflexivity|].
    destruct (Qmaxb_max (q_total s) (n_end n)) as [M1 [M2 _]].
    destruct (Qmaxb_max 0 (Qmaxb (q_total s) (n_end n))) as [M3 [M4 _]].
    destruct (n_drum n); cbn [q_set_total q_pitched q_drums q_total q_instr q_ccs q_bends]; rewrite ?app_nil_r;
      repeat (split; [solve [reflexivity|lra]|]); try reflexivity.
Qed.
Lemma selects_filter : forall A (p : A -> Prop) (f : A -> bool), (forall x, f x = true <-> p x) ->
  forall l, selects p l (filter f l).
Proof.
  intros A p f H. induction l as [|x l IH]; simpl; [constructor|].
  destruct (f x) eqn:E; constructor; auto; [apply H; auto|]. intro X; apply H in X; congruence.
Qed.
Lemma selects_app : forall A (p : A -> Prop) l k l' k', selects p l k -> selects p l' k' -> selects p (l ++ l') (k ++ k').
Proof. intros A p l k l' k' H H'; induction H; simpl; auto; constructor; auto. Qed.
Lemma q_run_app : forall s a b, q_run s (a ++ b) = q_run (q_run s a) b.
Proof. intros; unfold q_run. apply fold_left_app. Qed.
Lemma add_history : forall i res l,
  let s := q_run (q_new [] i res) (map QAddNote l) in
  selects (fun n => n_instrument n = i_num i /\ n_drum n = false) l (q_pitched s) /\
  selects (fun n => n_instrument n = i_num i /\ n_drum n = true) l (q_drums s) /\
  latest_end (q_pitched s ++ q_drums s) (q_total s).
Proof.
  intros i res l. cbv zeta.
  cut (let s := q_run (q_new [] i res) (map QAddNote l) in q_instr s = i /\
  selects (fun n => n_instrument n = i_num i /\ n_drum n = false) l (q_pitched s) /\
  selects (fun n => n_instrument n = i_num i /\ n_drum n = true) l (q_drums s) /\
  latest_end (q_pitched s ++ q_drums s) (q_total s)); [cbv zeta; tauto|].
  induction l as [|n l IH] using rev_ind; cbv zeta.
  - simpl. destruct (i_drum i); (split; [auto|]; split; [constructor|]; split; [constructor|]);
      (split; [intros ? []|]; split; [lra|left; reflexivity]).
  - rewrite map_app, q_run_app. cbv zeta in IH. set (s := q_run (q_new [] i res) (map QAddNote l)) in *.
    destruct IH as [I [S1 [S2 L]]]. simpl. unfold q_add_note. rewrite I.
    destruct (Z.eqb_spec (n_instrument n) (i_num i)) as [E|E]; cbn [negb].
    + destruct L as [L1 [L2 L3]].
      assert (LE : forall p d, (forall m, In m (p ++ d) <-> In m (q_pitched s ++ q_drums s) \/ m = n) ->
         latest_end (p ++ d) (Qmaxb 0 (Qmaxb (q_total s) (n_end n)))).
      { intros p d H. destruct (Qmaxb_max (q_total s) (n_end n)) as [M1 [M2 M5]].
        destruct (Qmaxb_max 0 (Qmaxb (q_total s) (n_end n))) as [M3 [M4 M6]].
        split; [|split; [lra|]].
        - intros m Hm. apply H in Hm as [Hm| ->]; [specialize (L1 m Hm)|]; lra.
        - destruct M6 as [M6|M6]; [left; auto|]. destruct M5 as [M5|M5].
          + destruct L3 as [L3|[m [H1 H2]]]; [left; lra|]. right. exists m. split; [apply H; auto|lra].
          + right. exists n. split; [apply H; auto|lra]. }
      destruct (n_drum n) eqn:D; cbn [snd q_set_total q_instr q_pitched q_drums q_total].
      * split; auto. split.
        { rewrite <- (app_nil_r (q_pitched s)). apply selects_app; auto. constructor; [intros [_ X]; congruence|constructor]. }
        split. { apply selects_app; auto. constructor; [auto|constructor]. }
        apply LE. intro m. rewrite !in_app_iff. simpl. intuition.
      * split; auto. split. { apply selects_app; auto. constructor; [auto|constructor]. }
        split. { rewrite <- (app_nil_r (q_drums s)). apply selects_app; auto. constructor; [intros [_ X]; congruence|constructor]. }
        apply LE. intro m. rewrite !in_app_iff. simpl. intuition.
    + cbn [snd]. split; auto. split.
      { rewrite <- (app_nil_r (q_pitched s)). apply selects_app; auto. constructor; [intros [X _]; congruence|constructor]. }
      split; auto.
      { rewrite <- (app_nil_r (q_drums s)). apply selects_app; auto. constructor; [intros [X _]; congruence|constructor]. }
Qed.

(** ** C27 *)
Lemma truncate_spec : forall s t,
  let r := q_truncate s t in
  selects (fun n => (n_end n <= t)%Q) (q_notes s) (q_notes r) /\
  (q_total r == Qmaxb 0 (Qminb (q_total s) t))%Q /\ q_instr r = q_instr s /\
  ((forall n, In n (q_notes s) -> (n_end n <= q_total s)%Q) -> forall n, In n (q_notes r) -> (n_end n <= q_total r)%Q).
Proof.
  intros s t. unfold q_truncate. cbv zeta. rewrite notes_set_total, notes_new. cbn [q_set_total q_total q_instr q_new].
  split; [apply selects_filter; intro; apply Qle_bool_iff|]. split; [reflexivity|]. split; auto.
  intros B n Hn. apply filter_In in Hn as [Hn E]. apply Qle_bool_iff in E. specialize (B n Hn).
  destruct (Qminb_min (q_total s) t) as [? [? [?|?]]], (Qmaxb_max 0 (Qminb (q_total s) t)) as [? [? _]]; lra.
Qed.

(** ** C28 *)
Definition win (a b : Q) (n : note) : bool := negb (Qltb (n_start n) a || Qle_bool b (n_start n)).
Lemma win_iff : forall a b n, win a b n = true <-> (a <= n_start n)%Q /\ (n_start n < b)%Q.
Proof.
  intros. unfold win. rewrite negb_true_iff, orb_false_iff, Qltb_ge, Qle_bool_false. reflexivity.
Qed.
Lemma add_note_belongs : forall s n, belongs s n -> exists s', q_add_note s n = (Ok tt, s') /\
  q_notes s' = q_notes s ++ [n] /\ q_instr s' = q_instr s /\ q_res s' = q_res s.
Proof.
  intros s n [I D]. unfold q_add_note. rewrite (proj2 (Z.eqb_eq _ _) I). cbn [negb]. eexists; split; [reflexivity|].
  rewrite notes_set_total. unfold q_notes. rewrite D.
  destruct (i_drum (q_instr s)) eqn:E; cbn; rewrite ?E; auto.
Qed.
Lemma belongs_ext : forall s s' n, q_instr s = q_instr s' -> belongs s n -> belongs s' n.
Proof. unfold belongs; intros s s' n ->; auto. Qed.
Lemma slice_loop_ok : forall l acc a b, (0 <= a)%Q ->
  (forall n, In n l -> belongs acc n /\ (n_start n < n_end n)%Q) ->
  exists r, slice_loop acc l a b = Ok r /\ q_notes r = q_notes acc ++ filter (win a b) l /\
    q_instr r = q_instr acc /\ q_res r = q_res acc.
Proof.
  induction l as [|n l IH]; intros acc a b Ha H; simpl.
  - exists acc. rewrite app_nil_r. auto.
  - unfold win at 1. destruct (Qltb (n_start n) a || Qle_bool b (n_start n)) eqn:E; simpl.
    + apply IH; auto. intros; apply H; right; auto.
    + apply orb_false_iff in E as [E1 E2]. qb. destruct (H n (or_introl eq_refl)) as [B V].
      rewrite set_end_eq by (destruct (Qminb_min (n_end n) b) as [? [? [?|?]]]; lra).
      destruct (add_note_belongs acc n B) as [acc' [-> [N [I R]]]].
      destruct (IH acc' a b Ha) as [r [-> [N' [I' R']]]].
      { intros m Hm. destruct (H m (or_intror Hm)). split; auto. eapply belongs_ext; [|eauto]; auto. }
      exists r. split; auto. rewrite N', N, <- app_assoc. simpl. repeat split; congruence.
Qed.
Lemma slice_spec : forall s a b strict, (0 <= a)%Q ->
  (forall n, In n (q_notes s) -> belongs s n /\ (n_start n < n_end n)%Q) ->
  (strict = false \/ q_is_quantized s = true) ->
  exists r, q_slice s a b strict = Ok r /\
    selects (fun n => (a <= n_start n)%Q /\ (n_start n < b)%Q) (q_notes s) (q_notes r) /\
    (q_total r == Qmaxb 0 (Qminb (q_total s) b))%Q /\ q_instr r = q_instr s /\ q_res r = q_res s /\
    (forall n, In n (q_notes r) -> (b < n_end n)%Q -> (q_total r < n_end n)%Q).
Proof.
  intros s a b strict Ha H St. unfold q_slice.
  replace (strict && negb (q_is_quantized s)) with false by (destruct St as [->|  ->]; [auto|rewrite andb_false_r; auto]).
  destruct (slice_loop_ok (q_notes s) (q_clone_empty s) a b Ha H) as [r [E [N [I R]]]].
  rewrite E. cbn [bind]. eexists; split; [reflexivity|]. rewrite notes_set_total, N.
  assert (Z0 : q_notes (q_clone_empty s) = []) by (unfold q_notes, q_clone_empty; simpl; destruct (i_drum (q_instr s)); auto).
  rewrite Z0. cbn [app q_set_total q_total q_instr q_res].
  split; [apply selects_filter; apply win_iff|]. split; [reflexivity|]. split; [auto|]. split; [auto|].
  intros n Hn Hb. apply filter_In in Hn as [Hn W]. apply win_iff in W as [W1 W2]. 
  destruct (H n Hn) as [_ V].
  destruct (Qminb_min (q_total s) b) as [? [? _]], (Qmaxb_spec 0 (Qminb (q_total s) b)) as [[? ->]|[? ->]]; lra.
Qed.
Lemma slice_loop_wrong : forall l acc a b n, In n l -> (a <= n_start n)%Q -> (n_start n < b)%Q ->
  n_instrument n <> i_num (q_instr acc) -> slice_loop acc l a b = Err ValueError.
Proof.
  induction l as [|m l IH]; intros acc a b n Hn W1 W2 D; [contradiction|]. simpl.
  destruct (Qltb (n_start m) a || Qle_bool b (n_start m)) eqn:E.
  - destruct Hn as [->| Hn]; [|eapply IH; eauto].
    apply orb_true_iff in E as [E|E]; qb; lra.
  - destruct (n_set_end m (Qminb (n_end m) b)) as [[[]|e] m'] eqn:SE.
    + destruct (q_add_note acc m) as [[[]|e] acc'] eqn:AE.
      * destruct (add_note_spec acc m) as [A1 A2].
        destruct (Z.eq_dec (n_instrument m) (i_num (q_instr acc))) as [Q|Q]; [|rewrite A1 in AE by auto; discriminate].
        destruct (A2 Q) as [s' [X [_ [_ [_ [_ [I _]]]]]]]. rewrite AE in X. injection X as ->.
        destruct Hn as [->| Hn]; [contradiction|]. eapply IH; eauto. congruence.
      * unfold q_add_note in AE. destruct (negb (n_instrument m =? i_num (q_instr acc))); [injection AE as <- _; auto|discriminate].
    + unfold n_set_end in SE. destruct (Qltb (Qminb (n_end m) b) 0); [injection SE as <- _; auto|].
      destruct (Qle_bool (Qminb (n_end m) b) (n_start m)); [injection SE as <- _; auto|discriminate].
Qed.
Lemma slice_errors : forall s a b,
  (q_is_quantized s = false -> q_slice s a b true = Err ValueError) /\
  (forall n strict, In n (q_notes s) -> (a <= n_start n)%Q -> (n_start n < b)%Q ->
     n_instrument n <> i_num (q_instr s) -> q_slice s a b strict = Err ValueError).
Proof.
  intros s a b. unfold q_slice. split.
  - intros ->. reflexivity.
  - intros n strict Hn W1 W2 D. destruct (strict && negb (q_is_quantized s)); auto.
    rewrite (slice_loop_wrong _ (q_clone_empty s) a b n Hn W1 W2 D). reflexivity.
Qed.

(** ** C29 *)
Lemma validate_iff : forall s, q_validate s = true <-> forall n, In n (q_notes s) -> n_instrument n = i_num (q_instr s).
Proof. intro s. unfold q_validate. rewrite forallb_forall. split; intros H n Hn; apply Z.eqb_eq; auto. Qed.
Lemma merge_spec : forall s o,
  let ok := q_instr s = q_instr o /\ q_res s = q_res o /\
            forall n, In n (q_notes s ++ q_notes o) -> n_instrument n = i_num (q_instr s) in
  (ok -> exists s', q_merge s o = (Ok tt, s') /\ Permutation (q_notes s') (q_notes s ++ q_notes o) /\
         latest_end (q_notes s') (q_total s') /\ q_instr s' = q_instr s /\ q_res s' = q_res s /\ q_ccs s' = q_ccs s /\ q_bends s' = q_bends s) /\
  (~ ok -> q_merge s o = (Err ValueError, s)).
Proof.
  intros s o ok. subst ok. unfold q_merge. split.
  - intros [I [R V]].
    rewrite (proj2 (proj1 (i_eq_hash (fun _ => 0) _ _)) I), (proj2 (Z.eqb_eq _ _) R). cbn [negb orb].
    rewrite (proj2 (validate_iff s)) by (intros; apply V; apply in_or_app; auto).
    rewrite (proj2 (validate_iff o)) by (intros; rewrite <- I; apply V; apply in_or_app; auto).
    cbn [negb]. eexists; split; [reflexivity|].
    split; [|split; [apply adjust_latest|]].
    + rewrite notes_adjust, notes_put. rewrite <- insort_fold_perm, app_nil_r. symmetry. apply py_sort_perm.
    + unfold q_adjust, q_set_total. cbn [q_instr q_res q_ccs q_bends].
      rewrite instr_put, res_put, ccs_put, bends_put. unfold q_set_notes, q_set_total. cbn [q_instr q_res q_ccs q_bends].
      rewrite instr_put, res_put, ccs_put, bends_put. auto.
  - intro N. destruct (i_eqb (q_instr s) (q_instr o)) eqn:E1; cbn [negb orb]; auto.
    destruct (Z.eqb_spec (q_res s) (q_res o)) as [E2|E2]; cbn [negb]; auto.
    apply (proj1 (i_eq_hash (fun _ => 0) _ _)) in E1.
    destruct (q_validate s) eqn:V1; cbn [negb]; auto. destruct (q_validate o) eqn:V2; cbn [negb]; auto.
    exfalso. apply N. split; auto. split; auto. rewrite validate_iff in V1, V2. intros n Hn.
    apply in_app_or in Hn as [Hn|Hn]; auto. rewrite E1; auto.
Qed.

(** the tolerance order on separated notes *)
Lemma n_ltb_lex : forall a b, separated (n_start a) (n_start b) -> separated (n_end a) (n_end b) ->
  (n_ltb a b = true <-> lex_before a b).
Proof.
  intros a b S E. rewrite n_ltb_iff. unfold separated, lex_before, before_tol, within_tol, tol in *. split.
  - intros [H|[[[H H'] H0]|[[H H'] [[H0 H0'] H1]]]].
    + left; lra.
    + right. split; [|left; lra]. destruct S as [S|[S|S]]; lra.
    + right. split; [destruct S as [S|[S|S]]; lra|]. right. split; [destruct E as [E|[E|E]]; lra|auto].
  - intros [H|[H [H0|[H0 H1]]]].
    + left. destruct S as [S|[S|S]]; lra.
    + right; left. split; [lra|]. destruct E as [E|[E|E]]; lra.
    + right; right. split; [lra|]. split; [lra|auto].
Qed.
Lemma lex_asym : forall a b, lex_before a b -> ~ lex_before b a.
Proof. unfold lex_before; intros a b H K. destruct H as [H|[H [H0|[H0 H1]]]], K as [K|[K [K0|[K0 K1]]]]; try lra; lia. Qed.
Lemma lex_dec : forall a b, lex_before a b \/ ~ lex_before a b.
Proof.
  intros a b. unfold lex_before.
  destruct (Q_dec (n_start a) (n_start b)) as [[H|H]|H]; [left; left; lra|right; intros [K|[K _]]; lra|].
  destruct (Q_dec (n_end a) (n_end b)) as [[K|K]|K]; [left; right; auto|right; intros [X|[_ [X|[X _]]]]; lra|].
  destruct (Z_lt_le_dec (n_pitch a) (n_pitch b)); [left; right; auto|].
  right. intros [X|[_ [X|[_ X]]]]; try lra; lia.
Qed.
Lemma lex_ntrans : forall a b c, ~ lex_before b a -> ~ lex_before c b -> ~ lex_before c a.
Proof.
  intros a b c H K X. unfold lex_before in *.
  destruct (Q_dec (n_start b) (n_start a)) as [[A|A]|A]; [apply H; left; auto| |].
  - destruct (Q_dec (n_start c) (n_start b)) as [[B|B]|B]; [apply K; left; auto| |];
      destruct X as [X|[X _]]; lra.
  - destruct (Q_dec (n_start c) (n_start b)) as [[B|B]|B]; [apply K; left; auto|destruct X as [X|[X _]]; lra|].
    destruct X as [X|[_ X]]; [lra|].
    destruct (Q_dec (n_end b) (n_end a)) as [[A'|A']|A']; [apply H; right; split; [lra|left; auto]| |];
    destruct (Q_dec (n_end c) (n_end b)) as [[B'|B']|B']; try (apply K; right; split; [lra|left; lra]); try (destruct X as [X|[X _]]; lra).
    destruct X as [X|[_ X]]; [lra|].
    destruct (Z_lt_le_dec (n_pitch b) (n_pitch a)); [apply H; right; split; [lra|]; right; split; [lra|auto]|].
    apply K; right; split; [lra|]; right; split; [lra|lia].
Qed.
Section Sep.
Variable L : list note.
Hypothesis HS : all_separated L.
Let P n := In n L.
Local Lemma P_lt : forall a b, P a -> P b -> (n_ltb a b = true <-> lex_before a b).
Proof. intros a b Ha Hb. destruct (HS a b Ha Hb). apply n_ltb_lex; auto. Qed.
Local Lemma P_ge : forall a b, P a -> P b -> (n_ltb a b = false <-> ~ lex_before a b).
Proof. intros a b Ha Hb. rewrite <- (P_lt a b Ha Hb). destruct (n_ltb a b); split; congruence. Qed.
Lemma sep_asym : forall a b, P a -> P b -> n_ltb a b = true -> n_ltb b a = false.
Proof. intros a b Ha Hb H. apply P_ge; auto. apply lex_asym. apply P_lt; auto. Qed.
Lemma sep_ntrans : forall a b c, P a -> P b -> P c -> n_ltb b a = false -> n_ltb c b = false -> n_ltb c a = false.
Proof.
  intros a b c Ha Hb Hc H K. apply P_ge in H; auto. apply P_ge in K; auto. apply P_ge; auto.
  eapply lex_ntrans; eauto.
Qed.
Lemma sep_sorted : forall l, (forall n, In n l -> P n) -> (sorted_by n_ltb l <-> in_order l).
Proof.
  induction l as [|x l IH]; intro F; [split; constructor|].
  assert (F' : forall n, In n l -> P n) by (intros; apply F; right; auto).
  specialize (IH F'). unfold sorted_by, in_order in *.
  split; intro S; inversion S as [|? ? S1 S2]; subst; constructor; try (apply IH; auto);
    rewrite Forall_forall in *; intros y Hy; specialize (S2 y Hy);
    apply P_ge; auto; (apply F; left; auto) || (apply F; right; auto).
Qed.
End Sep.
Lemma merge_sorted : forall s o s', q_merge s o = (Ok tt, s') ->
  all_separated (q_notes s ++ q_notes o) -> in_order (q_notes s').
Proof.
  intros s o s' H S. unfold q_merge in H.
  destruct (negb (i_eqb (q_instr s) (q_instr o)) || negb (q_res s =? q_res o)); [discriminate|].
  destruct (negb (q_validate s)); [discriminate|]. destruct (negb (q_validate o)); [discriminate|].
  injection H as <-. rewrite notes_adjust, notes_put.
  set (L := q_notes s ++ q_notes o) in *.
  assert (M : forall n, In n (fold_left (insort_left n_ltb) (py_sort n_ltb L) []) -> In n L).
  { intros n Hn. apply (Permutation_in _ (Permutation_sym (insort_fold_perm _ n_ltb (py_sort n_ltb L) []))) in Hn.
    rewrite app_nil_r in Hn. apply (Permutation_in _ (Permutation_sym (py_sort_perm n_ltb L))). auto. }
  apply (sep_sorted L S); auto.
  apply insort_fold_sorted with (P := fun n => In n L).
  - apply sep_asym; auto.
  - apply sep_ntrans; auto.
  - apply Forall_forall. intros n Hn. apply (Permutation_in _ (Permutation_sym (py_sort_perm n_ltb L))). auto.
  - constructor.
  - constructor.
Qed.

(** ** C30 *)
Lemma add_spec : forall s o,
  (q_notes s <> [] \/ q_notes o <> [] \/ q_instr s <> q_instr o -> q_add s o = Err ValueError) /\
  (q_notes s = [] -> q_notes o = [] -> q_instr s = q_instr o -> exists r, q_add s o = Ok r /\ q_notes r = []).
Proof.
  intros s o. unfold q_add. split.
  - intro H. destruct (i_eqb (q_instr s) (q_instr o)) eqn:E; cbn [negb]; auto.
    apply (proj1 (i_eq_hash (fun _ => 0) _ _)) in E.
    destruct (q_notes s), (q_notes o); auto. destruct H as [H|[H|H]]; congruence.
  - intros -> -> E. rewrite (proj2 (proj1 (i_eq_hash (fun _ => 0) _ _)) E). cbn [negb].
    eexists; split; [reflexivity|]. apply notes_set_notes.
Qed.
Lemma extract_note_raises : forall sub n a b, (q_total sub == 0)%Q -> extract_note sub n a b = Err ValueError.
Proof.
  intros sub n a b T. unfold extract_note.
  destruct (n_set_start n (n_start n - a)) as [[[]|e] n1] eqn:E1.
  - destruct (n_set_end n1 (Qminb (n_end n) b - a)) as [[[]|e] n2] eqn:E2.
    + apply set_end_ok in E2 as [-> [? ?]]. cbn [with_end n_end n_start] in *.
      rewrite (proj2 (n_set_end_spec _ _)); auto.
      intros [_ X]. cbn [with_end n_start] in X.
      destruct (Qminb_min (Qminb (n_end n) b - a) (q_total sub + n_start n1)) as [_ [M _]]. lra.
    + unfold n_set_end in E2. destruct (Qltb (Qminb (n_end n) b - a) 0); [congruence|].
      destruct (Qle_bool (Qminb (n_end n) b - a) (n_start n1)); congruence.
  - unfold n_set_start in E1. destruct (Qltb (n_start n - a) 0); [congruence|].
    destruct (Qle_bool (n_end n) (n_start n - a)); congruence.
Qed.
Lemma find_window_some : forall l t i a b, find_window l t = Some (i, a, b) -> (i < List.length l - 1)%nat.
Proof.
  induction l as [|x l IH]; intros t i a b H; [discriminate|]. destruct l as [|y l]; [discriminate|].
  change (find_window (x :: y :: l) t) with (if Qle_bool x t && Qltb t y then Some (O, x, y)
       else match find_window (y :: l) t with Some (i, a, b) => Some (S i, a, b) | None => None end) in H.
  destruct (Qle_bool x t && Qltb t y).
  - inversion H; subst. simpl. lia.
  - destruct (find_window (y :: l) t) as [[[j c] d]|] eqn:E; [|discriminate]. inversion H; subst.
    specialize (IH _ _ _ _ E). simpl in *. lia.
Qed.
Lemma find_window_none : forall l x t, ascending (x :: l) -> (x <= t)%Q ->
  (find_window (x :: l) t = None <-> ~ (t < last (x :: l) 0)%Q \/ l = []).
Proof.
  induction l as [|y l IH]; intros x t SS Hx.
  - simpl. split; auto.
  - inversion SS as [|? ? S1 S2]; subst.
    assert (E : find_window (x :: y :: l) t = if Qle_bool x t && Qltb t y then Some (O, x, y)
       else match find_window (y :: l) t with Some (i, a, b) => Some (S i, a, b) | None => None end) by reflexivity.
    assert (La : last (x :: y :: l) 0%Q = last (y :: l) 0%Q) by reflexivity.
    rewrite E, La. clear E La.
    rewrite (proj2 (Qle_bool_iff x t) Hx). cbn [andb].
    qcase (Qltb t y).
    + split; [discriminate|]. intros [N|N]; [|discriminate]. exfalso. apply N.
      assert (y <= last (y :: l) 0)%Q.
      { destruct l as [|z l]; [simpl; lra|]. inversion S1 as [|? ? _ F]; subst. rewrite Forall_forall in F.
        apply F. change (last (y :: z :: l) 0%Q) with (last (z :: l) 0%Q).
        destruct (@exists_last _ (z :: l)) as [l' [w ->]]; [discriminate|]. rewrite last_last. apply in_or_app; right; left; auto. }
      lra.
    + destruct (find_window (y :: l) t) as [[[i a] b]|] eqn:F.
      * split; [discriminate|]. intros [N|N]; [|discriminate]. exfalso.
        assert (X : find_window (y :: l) t = None) by (apply IH; auto). congruence.
      * split; auto. intros _. apply IH in F; auto. destruct F as [F| ->]; auto. left. simpl. lra.
Qed.
Lemma in_windows_iff : forall x l t, in_windows (x :: l) t <-> (x <= t)%Q /\ (t < last (x :: l) 0)%Q.
Proof.
  intros x l t. unfold in_windows. split.
  - intros [a [b [r [E [L [H1 H2]]]]]]. injection E as <- <-. rewrite L. auto.
  - intros [H1 H2]. exists x, (last (x :: l) 0%Q), l. auto.
Qed.
Lemma pairs_sorted_iff : forall l, ascending l -> pairs_sorted l = true.
Proof.
  induction l as [|x l IH]; intro S; auto. destruct l as [|y l]; auto.
  inversion S as [|? ? S1 S2]; subst. inversion S2; subst.
  change (Qle_bool x y && pairs_sorted (y :: l) = true). rewrite IH by auto.
  rewrite (proj2 (Qle_bool_iff x y)) by auto. reflexivity.
Qed.
Lemma extract_loop_spec : forall l splits x r, splits = x :: r -> r <> [] -> ascending splits ->
  StronglySorted (fun a b => (n_start a <= n_start b)%Q) l ->
  let subs := repeat (q_new [] generic 220) (List.length splits - 1) in
  ((exists n, In n l /\ in_windows splits (n_start n)) -> extract_loop subs l splits x = Err ValueError) /\
  ((forall n, In n l -> ~ in_windows splits (n_start n)) -> extract_loop subs l splits x = Ok subs).
Proof.
  intros l splits x r E NE S SL subs. induction SL as [|n l SL IH Hn]; simpl.
  - split; [intros [n [[] _]]|auto].
  - qcase (Qltb (n_start n) x).
    + destruct IH as [I1 I2]. split.
      * intros [m [[<-|Hm] W]]; [|eauto]. rewrite E in W. apply in_windows_iff in W. lra.
      * intros H. apply I2. intros; apply H; auto.
    + destruct (find_window splits (n_start n)) as [[[i a] b]|] eqn:F.
      * assert (W : in_windows splits (n_start n)).
        { rewrite E in *. apply in_windows_iff. split; auto. apply Qnot_le_lt. intro X.
          assert (find_window (x :: r) (n_start n) = None) by (apply find_window_none; auto; left; lra). congruence. }
        pose proof (find_window_some _ _ _ _ _ F) as Hi.
        assert (X : nth_error subs i = Some (q_new [] generic 220)).
        { subst subs. rewrite nth_error_repeat; auto. }
        rewrite X. rewrite extract_note_raises by reflexivity.
        split; auto. intro H. exfalso. apply (H n); auto.
      * split; auto. intros [m [Hm W]]. exfalso.
        rewrite E in *. apply in_windows_iff in W as [W1 W2].
        apply find_window_none in F; auto. destruct F as [F|F]; [|contradiction].
        destruct Hm as [<-|Hm]; [auto|]. rewrite Forall_forall in Hn. specialize (Hn m Hm). lra.
Qed.
Lemma start_sorted : forall l, StronglySorted (fun a b => (n_start a <= n_start b)%Q) (py_sort start_lt l).
Proof.
  intro l. assert (H : sorted_by start_lt (py_sort start_lt l)).
  { apply py_sort_sorted; unfold start_lt.
    - intros a b H; qb. apply Qltb_ge. lra.
    - intros a b c H K; qb. apply Qltb_ge. lra. }
  unfold sorted_by in H. induction H as [|x k H IH F]; constructor; auto.
  eapply Forall_impl; [|exact F]. unfold start_lt. intros b Hb; simpl in Hb. qb. auto.
Qed.
Lemma extract_spec : forall s splits,
  q_is_quantized s = false -> (2 <= List.length splits)%nat -> ascending splits ->
  (forall t, In t (removelast splits) -> (t < q_total s)%Q) ->
  ((exists n, In n (q_notes s) /\ in_windows splits (n_start n)) -> q_extract s splits = Err ValueError) /\
  ((forall n, In n (q_notes s) -> ~ in_windows splits (n_start n)) ->
     exists l, q_extract s splits = Ok l /\ List.length l = (List.length splits - 1)%nat /\ forall r, In r l -> q_notes r = []).
Proof.
  intros s splits NQ Len S T. unfold q_extract. rewrite NQ.
  destruct splits as [|x [|y r]]; simpl in Len; try lia.
  rewrite pairs_sorted_iff by auto. cbn [negb].
  replace (existsb (fun t => Qle_bool (q_total s) t) (removelast (x :: y :: r))) with false.
  2:{ symmetry. destruct (existsb (fun t => Qle_bool (q_total s) t) (removelast (x :: y :: r))) eqn:E; auto.
      apply existsb_exists in E as [t [Ht E]]. apply Qle_bool_iff in E. specialize (T t Ht). lra. }
  destruct (extract_loop_spec (py_sort start_lt (q_notes s)) (x :: y :: r) x (y :: r) eq_refl ltac:(discriminate) S (start_sorted _)) as [E1 E2].
  pose proof (py_sort_perm start_lt (q_notes s)) as PS. split.
  - intros [n [Hn W]]. apply E1. exists n. split; auto. apply (Permutation_in _ PS). auto.
  - intros H. eexists; split; [apply E2|].
    + intros n Hn. apply H. apply (Permutation_in _ (Permutation_sym PS)). auto.
    + split; [apply repeat_length|]. intros q Hq. apply repeat_spec in Hq. subst q. reflexivity.
Qed.
Lemma quantised_raises : forall s, (forall n, In n (q_notes s) -> n_is_quantized n = true) ->
  (forall splits, q_extract s splits = Err ValueError) /\ (forall d, q_shift s d = (Err ValueError, s)).
Proof.
  intros s H. assert (E : q_is_quantized s = true) by (apply forallb_forall; auto).
  unfold q_extract, q_shift. rewrite E. auto.
Qed.
Lemma take_started_mono : forall l span ivs t skip l' span' ivs', take_started l span ivs t skip = (l', span', ivs') ->
  exists k, ivs' = ivs ++ k.
Proof.
  induction l as [|n l IH]; intros span ivs t skip l' span' ivs' H; simpl in H.
  - injection H as <- <- <-. exists []; rewrite app_nil_r; auto.
  - destruct (Qltb (n_start n) t).
    + apply IH in H as [k ->].
      match goal with |- context [if ?c then ivs ++ [t] else ivs] => destruct c end; [rewrite <- app_assoc|]; eauto.
    + injection H as <- <- <-. exists []; rewrite app_nil_r; auto.
Qed.
Lemma intervals_mono : forall splits l span ivs skip, exists k, intervals_loop l span ivs splits skip = ivs ++ k.
Proof.
  induction splits as [|t splits IH]; intros; simpl.
  - exists []; rewrite app_nil_r; auto.
  - destruct (take_started l (drop_ended span t) ivs t skip) as [[l' span'] ivs'] eqn:E.
    apply take_started_mono in E as [k ->]. destruct (IH l' span' (ivs ++ k) skip) as [k' ->].
    rewrite <- app_assoc. eauto.
Qed.
Lemma split_raises : forall s splits skip, (0 < q_total s)%Q ->
  q_split s splits skip = Err AttributeError.
Proof.
  intros s splits skip H. unfold q_split.
  destruct (intervals_mono splits (py_sort start_lt (q_notes s)) [] [0%Q] skip) as [k ->].
  destruct k as [|y k].
  - simpl. rewrite (proj2 (Qltb_lt 0 (q_total s)) H). reflexivity.
  - match goal with |- context [if Qltb ?a ?b then _ else _] => destruct (Qltb a b) end; reflexivity.
Qed.

(** ** C31 *)
Lemma Forall2_map_r : forall A (R : A -> A -> Prop) f (l : list A), (forall x, R x (f x)) -> Forall2 R l (map f l).
Proof. intros; induction l; simpl; constructor; auto. Qed.
Lemma shift_affine : forall n d, affine_note 1 d n (n_shift n d).
Proof. intros. unfold affine_note, same_identity; cbn. repeat split; auto; ring. Qed.
Lemma stretch_affine : forall n k, affine_note k 0 n (n_stretch n k).
Proof. intros. unfold affine_note, same_identity; cbn. repeat split; auto; ring. Qed.
Lemma shift_spec : forall s d,
  (q_is_quantized s = true -> q_shift s d = (Err ValueError, s)) /\
  (q_is_quantized s = false -> exists s', q_shift s d = (Ok tt, s') /\
     Forall2 (affine_note 1 d) (q_notes s) (q_notes s') /\
     (q_total s' == Qmaxb 0 (q_total s + d))%Q).
Proof.
  intros s d. unfold q_shift. split; intros ->; auto. eexists; split; [reflexivity|].
  rewrite notes_set_total, notes_put. split; [apply Forall2_map_r; intro; apply shift_affine|]. cbn [q_set_total q_total]. rewrite total_put. reflexivity.
Qed.
Lemma stretch_spec : forall s k,
  Forall2 (affine_note k 0) (q_notes s) (q_notes (q_stretch s k)) /\
  latest_end (q_notes (q_stretch s k)) (q_total (q_stretch s k)) /\
  ((0 <= k)%Q -> latest_end (q_notes s) (q_total s) -> (q_total (q_stretch s k) == k * q_total s)%Q).
Proof.
  intros s k. unfold q_stretch.
  assert (N : q_notes (q_adjust (q_put s (map (fun n => n_stretch n k) (q_notes s)))) = map (fun n => n_stretch n k) (q_notes s))
    by (rewrite notes_adjust, notes_put; auto).
  split; [rewrite N; apply Forall2_map_r; intro; apply stretch_affine|]. split; [apply adjust_latest|]. intros K [L1 [L2 L3]].
  eapply latest_unique; [apply adjust_latest|]. rewrite N. split; [|split].
  - intros m Hm. apply in_map_iff in Hm as [n [<- Hn]]. specialize (L1 n Hn). simpl. nra.
  - nra.
  - destruct L3 as [L3|[n [Hn E]]]; [left; rewrite L3; ring|].
    right. exists (n_stretch n k). split; [apply in_map_iff; eauto|]. simpl. rewrite E. ring.
Qed.

(** ** C71 *)
Lemma quantize_ccs_err : forall l sps amount, l <> [] -> quantize_ccs l sps amount = Err ValueError.
Proof.
  intros [|c l] sps amount H; [congruence|]. simpl. destruct (cc_quantize_raises c sps amount) as [_ [-> _]]. reflexivity.
Qed.
Lemma quantize_cc_fails : forall s sps amount, q_ccs s <> [] ->
  exists e s', q_quantize s sps amount = (Err e, s') /\ q_pitched s' = q_pitched s /\ q_drums s' = q_drums s /\
    q_ccs s' = q_ccs s /\ q_total s' = q_total s.
Proof.
  intros s sps amount H. unfold q_quantize.
  destruct (quantize_notes (q_notes s) sps amount (q_steps s)) as [[l|e] st].
  - rewrite quantize_ccs_err by auto. do 2 eexists; split; [reflexivity|]. auto.
  - do 2 eexists; split; [reflexivity|]. auto.
Qed.
Lemma quantize_notes_steps : forall l sps amount st r st', quantize_notes l sps amount st = (r, st') ->
  exists p q, l = p ++ q /\ largest_step p st st' /\
    match r with Ok _ => q = [] | Err e => exists n q', q = n :: q' /\ n_quantize n sps amount None = Err e end.
Proof.
  induction l as [|n l IH]; intros sps amount st r st' H.
  - injection H as <- <-. exists [], []. split; auto. split; auto. split; [lra|]. split; [intros n []|auto].
  - cbn [quantize_notes] in H. destruct (n_quantize n sps amount None) as [n'|e] eqn:E.
    + destruct (quantize_notes l sps amount (if Qltb st (n_qe n) then n_qe n else st)) as [r1 st1] eqn:R.
      destruct (IH _ _ _ _ _ R) as (p & q & -> & (A & B & C) & D).
      assert (st' = st1 /\ match r with Ok _ => q = [] | Err e => exists n q', q = n :: q' /\ n_quantize n sps amount None = Err e end) as [-> D'].
      { destruct r1; injection H as <- <-; auto. }
      exists (n :: p), q. split; auto. split; [|exact D'].
      destruct (Qltb st (n_qe n)) eqn:L; [apply Qltb_lt in L|apply Qltb_ge in L].
      * split; [lra|]. split; [intros x [<-|Hx]; auto|]. right. destruct C as [->|(x & Hx & C)]; [exists n; split; [left|]; auto|exists x; split; [right|]; auto].
      * split; [lra|]. split; [intros x [<-|Hx]; auto; lra|]. destruct C as [->|(x & Hx & C)]; [left; auto|right; exists x; split; [right|]; auto].
    + injection H as <- <-. exists [], (n :: l). split; auto. split; [|exists n, l; auto]. split; [lra|]. split; [intros x []|auto].
Qed.
Lemma quantize_steps : forall s sps amount,
  exists p q, q_notes s = p ++ q /\ largest_step p (q_steps s) (q_steps (snd (q_quantize s sps amount))) /\
    (q <> [] -> exists n q' e, q = n :: q' /\ n_quantize n sps amount None = Err e /\ fst (q_quantize s sps amount) = Err e).
Proof.
  intros s sps amount. unfold q_quantize. destruct (quantize_notes (q_notes s) sps amount (q_steps s)) as [r st] eqn:E.
  destruct (quantize_notes_steps _ _ _ _ _ _ E) as (p & q & -> & L & D). exists p, q. split; auto.
  destruct r as [l|e].
  - subst q. destruct (quantize_ccs (q_ccs s) sps amount); cbn [snd]; (split; [|congruence]); [|exact L].
    assert (X : forall x y, q_steps (with_ccs (q_set_notes (with_steps s st) x) y) = st); [|rewrite X; exact L].
    intros x y. unfold q_set_notes, q_put. destruct (i_drum _); reflexivity.
  - cbn [snd fst with_steps q_steps]. split; auto. intros _. destruct D as (n & q' & -> & D). exists n, q', e. auto.
Qed.
Lemma quantize_notes_ok : forall l sps amount st, (forall n, In n l -> quantisable n) ->
  0 < sps -> (0 < amount)%Q -> (amount <= 1)%Q ->
  exists l' st', quantize_notes l sps amount st = (Ok l', st') /\
    Forall2 (fun n n' => n_quantize_in_place n sps amount None = (Ok tt, n')) l l'.
Proof.
  induction l as [|n l IH]; intros sps amount st H Hs Ha Ha1; simpl.
  - exists [], st. auto.
  - destruct (H n (or_introl eq_refl)) as [Q1 [Q2 [Q3 Q4]]].
    unfold n_quantize, n_make_copy. rewrite (n_new_id n Q3 Q2 Q4). cbn [bind].
    destruct (quantize_success n sps amount Q1 Q2 Hs Ha Ha1) as [n' [E _]]. rewrite E.
    destruct (IH sps amount (if Qltb st (n_qe n) then n_qe n else st)) as [l' [st' [E' F]]]; auto.
    { intros; apply H; right; auto. }
    rewrite E'. exists (n' :: l'), st'. split; auto.
Qed.
Lemma quantize_seq_ok : forall s sps amount, q_ccs s = [] ->
  (forall n, In n (q_notes s) -> quantisable n) -> 0 < sps -> (0 < amount)%Q -> (amount <= 1)%Q ->
  exists s', q_quantize s sps amount = (Ok tt, s') /\
    Forall2 (fun n n' => n_quantize_in_place n sps amount None = (Ok tt, n')) (q_notes s) (q_notes s') /\
    latest_end (q_notes s') (q_total s').
Proof.
  intros s sps amount C H Hs Ha Ha1. unfold q_quantize.
  destruct (quantize_notes_ok (q_notes s) sps amount (q_steps s) H Hs Ha Ha1) as [l' [st' [-> F]]].
  rewrite C. cbn [quantize_ccs]. eexists; split; [reflexivity|].
  change (q_notes (with_ccs (q_set_notes (with_steps s st') l') [])) with (q_notes (q_set_notes (with_steps s st') l')).
  rewrite notes_set_notes. split; auto.
  change (q_total (with_ccs (q_set_notes (with_steps s st') l') [])) with (q_total (q_set_notes (with_steps s st') l')).
  apply set_notes_latest.
Qed.

(** ** C72, C73 *)
Lemma clone_spec : forall s, (0 <= q_total s)%Q ->
  let c := q_clone s in
  (i_drum (q_instr s) = false -> q_notes c = q_notes s) /\ (i_drum (q_instr s) = true -> q_notes c = []) /\
  (q_total c == q_total s)%Q /\ q_ccs c = q_ccs s /\ q_bends c = q_bends s /\ q_instr c = q_instr s /\ q_res c = q_res s.
Proof.
  intros s H. unfold q_clone, q_notes. cbn. split; [intros ->; auto|]. split; [intros ->; auto|].
  split; [|auto]. destruct (Qmaxb_spec 0 (q_total s)) as [[? ->]|[? ->]]; lra.
Qed.
Lemma all_sep_perm : forall l l', (forall n, In n l' -> In n l) -> all_separated l -> all_separated l'.
Proof. unfold all_separated; intros; auto. Qed.
Lemma insert_spec : forall s n,
  Permutation (q_notes (q_insert s n)) (n :: q_notes s) /\
  latest_end (q_notes (q_insert s n)) (q_total (q_insert s n)) /\
  (all_separated (n :: q_notes s) -> in_order (q_notes s) -> in_order (q_notes (q_insert s n))).
Proof.
  intros s n. unfold q_insert.
  assert (N : q_notes (q_adjust (q_put s (insort_left n_ltb (q_notes s) n))) = insort_left n_ltb (q_notes s) n)
    by (rewrite notes_adjust, notes_put; auto).
  split; [rewrite N; symmetry; apply insort_left_perm|]. split; [apply adjust_latest|].
  rewrite N. intros S O. set (L := n :: q_notes s) in *.
  apply (sep_sorted L S).
  - intros m Hm. apply (Permutation_in _ (Permutation_sym (insort_left_perm n_ltb (q_notes s) n))). auto.
  - apply insort_sorted with (P := fun m => In m L).
    + apply sep_asym; auto.
    + apply sep_ntrans; auto.
    + apply Forall_forall. intros; right; auto.
    + left; auto.
    + apply (sep_sorted L S); auto. intros; right; auto.
Qed.
Lemma cut_spec : forall s k,
  let m := Z.to_nat (if 0 <=? k then k else Z.of_nat (List.length (q_notes s)) + k) in
  q_notes (q_cut_in_place s k) = firstn m (q_notes s) /\
  latest_end (q_notes (q_cut_in_place s k)) (q_total (q_cut_in_place s k)) /\
  (firstn m (q_notes s) = [] -> q_cut s k = Err IndexError) /\
  (firstn m (q_notes s) <> [] -> exists r z, q_cut s k = Ok r /\ q_notes r = firstn m (q_notes s) /\ q_instr r = q_instr s /\
     nth_error (rev (firstn m (q_notes s))) 0 = Some z /\ (q_total r == Qmaxb 0 (Qminb (q_total s) (n_end z)))%Q).
Proof.
  intros s k m. assert (P : py_take (q_notes s) k = firstn m (q_notes s)) by (subst m; unfold py_take; destruct (0 <=? k); auto).
  unfold q_cut_in_place, q_cut. rewrite P. rewrite notes_set_total, notes_set_notes. split; auto.
  split; [cbn [q_set_total q_total]; apply max_end_latest|]. split.
  - intros ->. reflexivity.
  - intro N. destruct (rev (firstn m (q_notes s))) as [|z r] eqn:E.
    + exfalso. apply N. rewrite <- (rev_involutive (firstn m (q_notes s))), E. reflexivity.
    + eexists; exists z; split; [reflexivity|]. rewrite notes_set_total, notes_new. split; auto. split; auto. split; auto. reflexivity.
Qed.

(** ** C74 *)
Lemma selects_cons_eq : forall (l k : list note) t n, selects (fun n => (n_start n == t)%Q) l k ->
  selects (fun n => (n_start n == t)%Q) (n :: l) (if Qeq_bool (n_start n) t then n :: k else k).
Proof.
  intros l k t n H. destruct (Qeq_bool (n_start n) t) eqn:E; constructor; auto.
  - apply Qeq_bool_iff; auto. - intro X. apply Qeq_bool_iff in X. congruence.
Qed.
Lemma insert_stable_filter : forall l n t, StronglySorted (fun a b => (n_start a <= n_start b)%Q) l ->
  filter (fun n => Qeq_bool (n_start n) t) (insert_stable start_lt n l) =
  (if Qeq_bool (n_start n) t then n :: filter (fun n => Qeq_bool (n_start n) t) l else filter (fun n => Qeq_bool (n_start n) t) l).
Proof.
  induction l as [|y l IH]; intros n t S; simpl.
  - destruct (Qeq_bool (n_start n) t); auto.
  - inversion S as [|? ? S1 S2]; subst. unfold start_lt at 1. qcase (Qltb (n_start y) (n_start n)).
    + simpl. rewrite IH by auto. destruct (Qeq_bool (n_start n) t) eqn:E1, (Qeq_bool (n_start y) t) eqn:E2; auto.
      apply Qeq_bool_iff in E1, E2. lra.
    + simpl. destruct (Qeq_bool (n_start n) t); auto.
Qed.
Lemma as_note_seq_spec : forall s,
  let r := q_as_note_seq s in
  fst r = map n_pitch (q_notes (snd r)) /\ Permutation (q_notes (snd r)) (q_notes s) /\
  StronglySorted (fun a b => (n_start a <= n_start b)%Q) (q_notes (snd r)) /\
  (forall t, selects (fun n => (n_start n == t)%Q) (q_notes s) (filter (fun n => Qeq_bool (n_start n) t) (q_notes (snd r)))) /\
  q_total (snd r) = q_total s.
Proof.
  intros s. unfold q_as_note_seq. destruct (q_notes s) as [|x l] eqn:E; cbv zeta; cbn [fst snd].
  - rewrite E. split; auto. split; auto. split; [constructor|]. split; [constructor|auto].
  - rewrite notes_put, total_put. set (L := x :: l). split; auto. split; [symmetry; apply py_sort_perm|].
    split; [apply start_sorted|]. split; auto. intro t. generalize L.
    induction L0 as [|n k IH]; simpl; [constructor|].
    rewrite insert_stable_filter by apply start_sorted. apply selects_cons_eq. exact IH.
Qed.

(** ** C75 *)
Lemma fold_min : forall l (g : Q), let m := fold_left (fun m x => if Qltb x m then x else m) l g in
  (forall x, In x (g :: l) -> (m <= x)%Q) /\ In m (g :: l).
Proof.
  induction l as [|y l IH]; intro g; simpl.
  - split; [intros x [<-|[]]; lra|auto].
  - destruct (IH (if Qltb y g then y else g)) as [I1 I2]. qcase (Qltb y g).
    + split; [|simpl in I2; tauto]. intros x [<-|[<-|H]].
      * assert (fold_left (fun m x => if Qltb x m then x else m) l y <= y)%Q by (apply I1; left; auto). lra.
      * apply I1; left; auto.
      * apply I1; right; auto.
    + split; [|simpl in I2; tauto]. intros x [<-|[<-|H]].
      * apply I1; left; auto.
      * assert (fold_left (fun m x => if Qltb x m then x else m) l g <= g)%Q by (apply I1; left; auto). lra.
      * apply I1; right; auto.
Qed.
Lemma gaps_iff : forall l g, In g (gaps l) <->
  exists p q a b, l = p ++ a :: b :: q /\ (n_end a < n_start b)%Q /\ g = (n_start b - n_start a)%Q.
Proof.
  induction l as [|x l IH]; intro g.
  - simpl. split; [intros []|]. intros [p [q [a [b [E _]]]]]. destruct p; discriminate.
  - destruct l as [|y l].
    + simpl. split; [intros []|]. intros [p [q [a [b [E _]]]]]. destruct p as [|? [|]]; discriminate.
    + change (gaps (x :: y :: l)) with (if Qltb (n_end x) (n_start y) then (n_start y - n_start x)%Q :: gaps (y :: l) else gaps (y :: l)).
      assert (B : In g (gaps (y :: l)) -> exists p q a b, x :: y :: l = p ++ a :: b :: q /\ (n_end a < n_start b)%Q /\ g = (n_start b - n_start a)%Q).
      { intro H. apply IH in H as [p [q [a [b [E H]]]]]. exists (x :: p), q, a, b. rewrite E. auto. }
      split.
      * qcase (Qltb (n_end x) (n_start y)); auto. intros [<-|H]; auto. exists [], l, x, y. auto.
      * intros [p [q [a [b [E [H1 H2]]]]]]. destruct p as [|z p]; simpl in E.
        -- injection E as -> -> ->. rewrite (proj2 (Qltb_lt _ _) H1). left; auto.
        -- injection E as -> E. assert (In g (gaps (y :: l))) by (apply IH; rewrite E; eauto 8).
           destruct (Qltb (n_end z) (n_start y)); [right|]; auto.
Qed.
Lemma min_step_spec : forall s, (forall n, In n (q_notes s) -> (n_start n < n_end n)%Q) ->
  let l := py_sort start_lt (q_notes s) in
  let silent_gap a b := exists p q, l = p ++ a :: b :: q /\ (n_end a < n_start b)%Q in
  (0 <= q_min_step s)%Q /\
  ((forall a b, ~ silent_gap a b) -> (q_min_step s == 0)%Q) /\
  (forall a b, silent_gap a b -> (0 < q_min_step s)%Q /\ (q_min_step s <= n_start b - n_start a)%Q) /\
  ((exists a b, silent_gap a b) -> exists a b, silent_gap a b /\ (q_min_step s == n_start b - n_start a)%Q).
Proof.
  intros s V l sg.
  assert (G : forall g, In g (gaps l) <-> exists a b, sg a b /\ g = (n_start b - n_start a)%Q).
  { intro g. rewrite gaps_iff. unfold sg. split.
    - intros [p [q [a [b [E [H ->]]]]]]. eauto 8.
    - intros [a [b [[p [q [E H]]] ->]]]. eauto 8. }
  assert (Pos : forall g, In g (gaps l) -> (0 < g)%Q).
  { intros g H. apply G in H as [a [b [[p [q [E H]]] ->]]].
    assert (In a (q_notes s)).
    { apply (Permutation_in _ (Permutation_sym (py_sort_perm start_lt (q_notes s)))). fold l. rewrite E.
      apply in_or_app; right; left; auto. }
    specialize (V a H0). lra. }
  assert (M : q_min_step s = match gaps l with [] => 0%Q | g :: r => fold_left (fun m x => if Qltb x m then x else m) r g end).
  { unfold q_min_step. fold l. destruct (Nat.ltb_spec (List.length (q_notes s)) 2) as [L|L]; auto.
    assert (E : List.length l = List.length (q_notes s)) by (symmetry; apply Permutation_length; apply py_sort_perm).
    destruct l as [|a [|b r]]; auto. simpl in E. lia. }
  rewrite M. destruct (gaps l) as [|g r] eqn:Eg.
  - split; [lra|]. split; [reflexivity|]. split.
    + intros a b H. exfalso. apply (proj2 (G (n_start b - n_start a)%Q)). eauto.
    + intros [a [b H]]. exfalso. apply (proj2 (G (n_start b - n_start a)%Q)). eauto.
  - destruct (fold_min r g) as [F1 F2]. set (m := fold_left (fun m x => if Qltb x m then x else m) r g) in *.
    pose proof (Pos m F2) as P0. split; [lra|]. split; [|split].
    + intro N. exfalso. apply G in F2 as [a [b [H _]]]. apply (N a b); auto.
    + intros a b H. split; auto. apply F1. apply G. eauto.
    + intros _. apply G in F2 as [a [b [H E]]]. exists a, b. split; auto. rewrite E. reflexivity.
Qed.

(** ** append, extend *)
Lemma extend_spec : forall s l, (0 <= q_total s)%Q ->
  (l = [] -> q_extend s l = (Err ValueError, s)) /\
  (l <> [] -> exists s', q_extend s l = (Ok tt, s') /\ q_notes s' = q_notes s ++ l /\
     q_instr s' = q_instr s /\ q_ccs s' = q_ccs s /\ q_bends s' = q_bends s /\ q_res s' = q_res s /\ q_steps s' = q_steps s /\
     (q_total s <= q_total s')%Q /\ (forall n, In n l -> (n_end n <= q_total s')%Q) /\
     ((q_total s' == q_total s)%Q \/ exists n, In n l /\ (q_total s' == n_end n)%Q)).
Proof.
  intros s l H. split; [intros ->; reflexivity|]. intros N. unfold q_extend. destruct l as [|x l]; [congruence|]. clear N.
  set (m := x :: l) in *. eexists; split; [reflexivity|]. rewrite notes_set_total, notes_put. split; auto.
  assert (P : forall z, q_instr (q_put s z) = q_instr s /\ q_ccs (q_put s z) = q_ccs s /\ q_bends (q_put s z) = q_bends s /\
    q_res (q_put s z) = q_res s /\ q_steps (q_put s z) = q_steps s) by (intros; unfold q_put; destruct (i_drum _); auto).
  destruct (P (q_notes s ++ m)) as (P1 & P2 & P3 & P4 & P5). cbn [q_set_total q_instr q_ccs q_bends q_res q_steps q_total].
  rewrite P1, P2, P3, P4, P5. do 5 (split; auto).
  destruct (max_end_spec m) as [U [A0 _]]. assert (A : exists n, In n m /\ n_end n = max_end m) by (apply A0; discriminate). clear A0.
  destruct (Qmaxb_spec (q_total s) (max_end m)) as [[? E1]|[? E1]]; rewrite E1;
  match goal with |- context [Qmaxb 0 ?t] => destruct (Qmaxb_spec 0 t) as [[? E2]|[? E2]]; rewrite E2 end.
  all: (split; [lra|]); (split; [intros n Hn; specialize (U n Hn); lra|]); try (left; lra).
  all: destruct A as (n & Hn & A); right; exists n; split; auto; rewrite A; lra.
Qed.
Lemma append1_spec : forall s n, (0 <= q_total s)%Q ->
  q_notes (q_append1 s n) = q_notes s ++ [n] /\ (q_total (q_append1 s n) == Qmaxb (q_total s) (n_end n))%Q.
Proof.
  intros s n H. unfold q_append1. rewrite notes_set_total, notes_put. split; auto. cbn [q_set_total q_total].
  destruct (Qmaxb_spec (q_total s) (n_end n)) as [[? E1]|[? E1]]; rewrite E1;
  match goal with |- context [Qmaxb 0 ?t] => destruct (Qmaxb_spec 0 t) as [[? E2]|[? E2]]; rewrite E2 end; lra.
Qed.
