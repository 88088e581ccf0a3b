(** Lemmas for midi_reader.py. *)
From Coq Require Import Lia Lqa Permutation.
From Verif Require Import PyBase M_SortedDict M_Note M_Events M_Seq M_Seqs M_Reader S_Seq S_Reader L_Base L_Sigs L_Note L_Seq L_SortedDict L_Seqs.
Open Scope Z_scope.

Lemma close_iff : forall n, qclose_def (rn_start n) (rn_end n) = true <-> ~ audible n.
Proof.
  intros n. unfold qclose_def, qclose, audible.
  assert (P : (0 <= Qmaxb (Qabsb (rn_start n)) (Qabsb (rn_end n)))%Q).
  { unfold Qmaxb, Qabsb. repeat match goal with |- context [if Qle_bool ?a ?b then _ else _] => destruct (Qle_bool a b) eqn:? end;
    repeat match goal with H : Qle_bool _ _ = true |- _ => apply Qle_bool_iff in H | H : Qle_bool _ _ = false |- _ => apply Qle_bool_false in H end; lra. }
  set (M := Qmaxb (Qabsb (rn_start n)) (Qabsb (rn_end n))) in *. set (D := Qabsb (rn_start n - rn_end n)).
  assert (E : (Qmaxb ((1 # 1000000000) * M) 0 == (1 # 1000000000) * M)%Q).
  { unfold Qmaxb. destruct (Qle_bool ((1 # 1000000000) * M) 0) eqn:H; [|reflexivity].
    apply Qle_bool_iff in H. lra. }
  rewrite Qle_bool_iff, E. split.
  - intros H1 H2. apply H2. lra.
  - intros H. destruct (Qlt_le_dec M (1000000000 * D)) as [L|L].
    + exfalso. apply H. lra.
    + lra.
Qed.
Lemma audible_iff : forall n, qclose_def (rn_start n) (rn_end n) = false <-> audible n.
Proof.
  intros n. pose proof (close_iff n) as H. destruct (qclose_def (rn_start n) (rn_end n)).
  - split; [discriminate|]. intros A. exfalso. apply H; auto.
  - split; auto. intros _. destruct (Qlt_le_dec (Qmaxb (Qabsb (rn_start n)) (Qabsb (rn_end n))) (1000000000 * Qabsb (rn_start n - rn_end n))) as [L|L].
    + unfold audible. lra.
    + exfalso. assert (false = true); [|discriminate]. apply H. unfold audible. intros A. apply A. exact L.
Qed.
Lemma audible_dec : forall n, audible n \/ ~ audible n.
Proof. intros n. destruct (qclose_def (rn_start n) (rn_end n)) eqn:E; [right; apply close_iff|left; apply audible_iff]; auto. Qed.
Lemma audible_lt : forall n, note_ok n -> audible n -> (rn_start n < rn_end n)%Q.
Proof.
  intros n [_ [_ [A B]]] H. destruct (Qlt_le_dec (rn_start n) (rn_end n)); auto. exfalso. apply H.
  unfold Qmaxb, Qabsb. repeat match goal with |- context [if Qle_bool ?a ?b then _ else _] => destruct (Qle_bool a b) eqn:? end;
    repeat match goal with H : Qle_bool _ _ = true |- _ => apply Qle_bool_iff in H | H : Qle_bool _ _ = false |- _ => apply Qle_bool_false in H end; lra.
Qed.

(** The notes kept, with a running maximum. *)
Fixpoint kept (m : Q) (l : list rnote) : list rnote :=
  match l with
  | [] => []
  | n :: r => if qclose_def (rn_start n) (rn_end n) then kept m r
              else if Qle_bool m (rn_end n) then n :: kept (rn_end n) r else kept m r
  end.
Lemma kept_survivors : forall l seen m, Forall note_ok l ->
  (forall x, In x seen -> audible x -> (rn_end x <= m)%Q) ->
  ((m == 0)%Q \/ exists x, In x seen /\ audible x /\ (rn_end x == m)%Q) ->
  survivors seen l (kept m l).
Proof.
  induction l as [|n l IH]; intros seen m F A B; cbn [kept]; [constructor|].
  inversion F as [|? ? Fn Fl]; subst.
  destruct (qclose_def (rn_start n) (rn_end n)) eqn:C.
  - apply close_iff in C. apply sv_drop; auto. apply IH; auto.
    + intros x Hx Hb. apply in_app_iff in Hx. destruct Hx as [Hx|[<-|[]]]; auto. contradiction.
    + destruct B as [B|[x [B1 B2]]]; auto. right. exists x. split; auto. apply in_app_iff; auto.
  - apply audible_iff in C. pose proof (audible_lt n Fn C) as L. destruct Fn as [_ [_ [Fs _]]].
    destruct (Qle_bool m (rn_end n)) eqn:K.
    + apply Qle_bool_iff in K. apply sv_keep; auto.
      * intros x Hx Hb. apply A in Hx; auto. lra.
      * apply IH; auto.
        -- intros x Hx Hb. apply in_app_iff in Hx. destruct Hx as [Hx|[<-|[]]]; [|lra]. apply A in Hx; auto. lra.
        -- right. exists n. split; [apply in_app_iff; simpl; auto|]. split; auto. lra.
    + apply Qle_bool_false in K. apply sv_drop.
      * right. destruct B as [B|[x [B1 [B2 B3]]]]; [lra|]. exists x. repeat split; auto. lra.
      * apply IH; auto.
        -- intros x Hx Hb. apply in_app_iff in Hx. destruct Hx as [Hx|[<-|[]]]; auto. lra.
        -- destruct B as [B|[x [B1 B2]]]; auto. right. exists x. split; auto. apply in_app_iff; auto.
Qed.

(** Signature lists. *)
Definition pow_ok (d : Z * Z) : Prop := 0 < fst d <= 255 /\ exists k, 0 <= k <= 7 /\ snd d = 2 ^ k.
Lemma sig_add_ok : forall A (l : list (sig A)) t d, l <> [] ->
  exists l', sig_add l t d = (Ok tt, l') /\ l' <> [] /\ forall x, In x l' -> In x l \/ g_data x = d.
Proof.
  intros A l t d H. unfold sig_add. destruct (rev l) as [|z zs] eqn:E.
  - exfalso. apply H. rewrite <- (rev_involutive l), E. reflexivity.
  - destruct l as [|f r]; [congruence|]. destruct (near (g_time f) t).
    + eexists. split; [reflexivity|]. split; [discriminate|]. intros x [<-|Hx]; [right; reflexivity|left; simpl; auto].
    + eexists. split; [reflexivity|]. pose proof (insort_left_perm sig_ltb (f :: r) (mkSig t (g_seq z + 1) d)) as P. split.
      * intros E2. rewrite E2 in P. apply Permutation_length in P. simpl in P. lia.
      * intros x Hx. apply (Permutation_in _ (Permutation_sym P)) in Hx. destruct Hx as [<-|Hx]; [right; reflexivity|auto].
Qed.
Lemma read_keys_ok : forall ks l, l <> [] -> Forall (fun k => 0 <= fst k < 24) ks -> exists l', read_keys l ks = Ok l'.
Proof.
  induction ks as [|[k t] ks IH]; intros l H F; cbn [read_keys]; [eauto|].
  inversion F as [|? ? Fk Fr]; subst. cbn [fst] in Fk.
  assert (M : k / 12 = 0 \/ k / 12 = 1).
  { pose proof (Z.div_mod k 12 ltac:(lia)). pose proof (Z.mod_pos_bound k 12 ltac:(lia)). lia. }
  replace ((k / 12 =? 0) || (k / 12 =? 1)) with true by (destruct M as [-> | ->]; reflexivity). cbn [negb].
  destruct (sig_add_ok _ l t (k mod 12, k / 12 =? 1) H) as [l' [E [N _]]]. rewrite E. auto.
Qed.
Lemma read_tempos_ok : forall r ts l, 0 < r -> l <> [] -> Forall (fun t => (0 < snd t)%Q) ts -> exists l', read_tempos r l ts = Ok l'.
Proof.
  induction ts as [|[t q] ts IH]; intros l R H F; cbn [read_tempos]; [eauto|].
  inversion F as [|? ? Fk Fr]; subst. cbn [snd] in Fk. unfold tempo_new.
  replace (Qle_bool q 0) with false by (symmetry; apply Qle_bool_false; lra).
  replace (r <=? 0) with false by (symmetry; apply Z.leb_gt; lia).
  destruct (sig_add_ok _ l t q H) as [l' [E [N _]]]. rewrite E. auto.
Qed.
Lemma read_times_ok : forall ts l, l <> [] -> (forall x, In x l -> pow_ok (g_data x)) ->
  Forall (fun t => 0 < fst (fst t) <= 255 /\ exists k, 0 <= k <= 7 /\ snd (fst t) = 2 ^ k) ts ->
  exists l', read_times l ts = Ok l' /\ l' <> [] /\ forall x, In x l' -> pow_ok (g_data x).
Proof.
  induction ts as [|[[nu de] t] ts IH]; intros l H G F; cbn [read_times]; [eauto|].
  inversion F as [|? ? Fk Fr]; subst. cbn [fst snd] in Fk. destruct Fk as [Fn [k [K ->]]]. unfold tsig_new.
  assert (0 < 2 ^ k) by (apply Z.pow_pos_nonneg; lia).
  replace (2 ^ k <=? 0) with false by (symmetry; apply Z.leb_gt; lia).
  replace (nu <=? 0) with false by (symmetry; apply Z.leb_gt; lia). cbn [orb].
  rewrite Z.log2_pow2 by lia. rewrite Z.eqb_refl. cbn [negb].
  destruct (sig_add_ok _ l t (nu, 2 ^ k) H) as [l' [E [N D]]]. rewrite E. apply IH; auto.
  intros x Hx. apply D in Hx. destruct Hx as [Hx|Hx]; auto. rewrite Hx. unfold pow_ok. cbn. split; [lia|eauto].
Qed.
Lemma time_signature_ok : forall l t, (forall x, In x l -> pow_ok (g_data x)) -> (0 <= t)%Q -> pow_ok (time_signature l t).
Proof.
  intros l t G H. unfold time_signature, sig_at.
  replace (Qltb t 0) with false by (symmetry; unfold Qltb; apply Bool.negb_false_iff; apply Qle_bool_iff; auto).
  destruct l as [|z r]; [unfold pow_ok; cbn; split; [lia|exists 2; cbn; lia]|].
  apply G. unfold at_or_last. generalize (bisect_right sig_ltb (z :: r) (mkSig t 0 (4, 4))). intros [|j].
  - assert (Hl : forall (w : list (sig (Z * Z))) d, w <> [] -> In (last w d) w).
    { intros w d Hw. destruct (exists_last Hw) as [w' [y ->]]. rewrite last_last. apply in_app_iff; simpl; auto. }
    apply Hl. discriminate.
  - destruct (nth_in_or_default j (z :: r) z) as [I|I]; auto. rewrite I. simpl; auto.
Qed.
Lemma pow_land : forall d, pow_ok d -> (0 <? snd d) && (Z.land (snd d) (snd d - 1) =? 0) = true /\ snd d <= 255 /\ 0 < snd d.
Proof.
  intros [a b] [_ [k [K E]]]. cbn [fst snd] in *. subst b.
  assert (C : k = 0 \/ k = 1 \/ k = 2 \/ k = 3 \/ k = 4 \/ k = 5 \/ k = 6 \/ k = 7) by lia.
  repeat (destruct C as [-> | C]; [vm_compute; intuition discriminate|]). subst. vm_compute; intuition discriminate.
Qed.

(** One note. *)
Definition conv (times : list (sig (Z * Z))) (i : rinst) (n : rnote) : note :=
  let d := time_signature times (rn_start n) in
  mkN (rn_pitch n) (rn_vel n) (ri_prog i) (ri_prog i) 0 (fst d) (snd d) (ri_drum i) (rn_start n) (rn_end n) (-1) (-1).
Definition upd (s s' : mseqs) (id : Z) (q : seq) : Prop :=
  tinv s' /\ (forall k, reg s' k = reg s k) /\ m_res s' = m_res s /\
  forall k, trk s' k = if id =? k then Some q else trk s k.
Lemma upd_put : forall s id q, tinv s -> upd s (put_track s id q) id q.
Proof. intros s id q I. destruct (trk_put s id q I) as [A B]. unfold upd. auto. Qed.
Lemma upd_trans : forall s s1 s2 id q1 q2, upd s s1 id q1 -> upd s1 s2 id q2 -> upd s s2 id q2.
Proof.
  intros s s1 s2 id q1 q2 [A1 [B1 [C1 D1]]] [A2 [B2 [C2 D2]]]. unfold upd. split; auto. split; [|split].
  - intros k. rewrite B2; auto. - congruence.
  - intros k. rewrite D2, D1. destruct (id =? k); auto.
Qed.
Lemma upd_refl : forall s id q, tinv s -> trk s id = Some q -> upd s s id q.
Proof. intros s id q I T. unfold upd. split; auto. split; auto. split; auto. intros k. destruct (Z.eqb_spec id k); subst; auto. Qed.

Definition ready (s : mseqs) (id : Z) (q : seq) : Prop := tinv s /\ reg s id = Some id /\ trk s id = Some q /\ 0 <= id < 128.
Lemma getitem_ready : forall s id q, ready s id q -> ms_getitem s id = (Ok q, s).
Proof.
  intros s id q [I [R [T B]]]. unfold ms_getitem.
  replace ((id <? 0) || (128 <=? id)) with false by (symmetry; apply orb_false_iff; split; [apply Z.ltb_ge|apply Z.leb_gt]; lia).
  rewrite R, T. reflexivity.
Qed.
Lemma get_track_ready : forall s id q n p d, ready s id q -> ms_get_track s id n p d = (Ok q, s).
Proof.
  intros s id q n p d [I [R [T B]]]. unfold ms_get_track.
  replace ((id <? 0) || (128 <=? id)) with false by (symmetry; apply orb_false_iff; split; [apply Z.ltb_ge|apply Z.leb_gt]; lia).
  rewrite T. cbn iota. rewrite T. reflexivity.
Qed.
Lemma ready_upd : forall s s' id q q', ready s id q -> upd s s' id q' -> ready s' id q'.
Proof.
  intros s s' id q q' [I [R [T B]]] [A [B' [C D]]]. unfold ready. split; auto. split; [|split]; auto.
  - rewrite B'; auto. - rewrite D, Z.eqb_refl; auto.
Qed.

Definition tot_ok (seen : list rnote) (t : Q) : Prop :=
  (forall n, In n seen -> audible n -> (rn_end n <= t)%Q) /\
  ((t == 0)%Q /\ (forall n, In n seen -> ~ audible n) \/ exists n, In n seen /\ audible n /\ (rn_end n == t)%Q).
(** The track after reading: same instrument, controllers; [k] the notes added. *)
Definition same_meta (q q' : seq) : Prop :=
  q_instr q' = q_instr q /\ q_ccs q' = q_ccs q /\ q_bends q' = q_bends q /\ q_res q' = q_res q /\ q_steps q' = q_steps q.
Lemma same_meta_refl : forall q, same_meta q q. Proof. unfold same_meta; auto. Qed.
Lemma same_meta_trans : forall a b c, same_meta a b -> same_meta b c -> same_meta a c.
Proof. unfold same_meta. intros a b c [A [B [C [D E]]]] [A' [B' [C' [D' E']]]]. repeat split; congruence. Qed.

Lemma qmaxb_pos : forall x, (0 <= x)%Q -> Qmaxb 0 x = x.
Proof. intros x H. unfold Qmaxb. apply Qle_bool_iff in H. rewrite H. reflexivity. Qed.
Lemma qmaxb_self : forall x, Qmaxb x x = x.
Proof. intros. unfold Qmaxb. destruct (Qle_bool x x); auto. Qed.

Lemma read_note_ok : forall times id i s total q n seen,
  (forall x, In x times -> pow_ok (g_data x)) -> ready s id q ->
  i_num (q_instr q) = ri_prog i -> i_drum (q_instr q) = ri_drum i -> 0 <= ri_prog i < 128 -> note_ok n ->
  (0 <= q_total q)%Q -> (q_total q <= total)%Q -> tot_ok seen total ->
  exists s' total' q', read_note times id i (s, total) n = (Ok tt, (s', total')) /\
    upd s s' id q' /\ same_meta q q' /\ (0 <= q_total q')%Q /\ (q_total q' <= total')%Q /\ tot_ok (seen ++ [n]) total' /\
    (forall r, q_notes q ++ map (conv times i) (kept (q_total q) (n :: r)) =
               q_notes q' ++ map (conv times i) (kept (q_total q') r)).
Proof.
  intros times id i s total q n seen G R IN ID PR NO T0 T1 TOK. unfold read_note. cbn [kept].
  destruct (qclose_def (rn_start n) (rn_end n)) eqn:C.
  - exists s, total, q. apply close_iff in C. split; auto. split; [apply upd_refl; apply R|]. split; [apply same_meta_refl|].
    split; auto. split; auto. split; auto.
    destruct TOK as [K1 K2]. split.
    + intros m Hm Hb. apply in_app_iff in Hm. destruct Hm as [Hm|[<-|[]]]; auto. contradiction.
    + destruct K2 as [[E K2]|[m [M1 M2]]].
      * left. split; auto. intros m Hm. apply in_app_iff in Hm. destruct Hm as [Hm|[<-|[]]]; auto.
      * right. exists m. split; auto. apply in_app_iff; auto.
  - apply audible_iff in C. pose proof (audible_lt n NO C) as LT. destruct NO as [NP [NV [NS _]]].
    assert (KE : exists s1, keep_note s total id n = (Ok (Qle_bool (q_total q) (rn_end n)), s1) /\ s1 = s).
    { unfold keep_note. destruct (Qeq_bool total 0) eqn:E.
      - exists s. split; auto. replace (Qle_bool (q_total q) (rn_end n)) with true; auto.
        symmetry. apply Qle_bool_iff. apply Qeq_bool_iff in E. lra.
      - rewrite (getitem_ready _ _ _ R). eauto. }
    destruct KE as [s1 [KE ->]]. rewrite KE. destruct (Qle_bool (q_total q) (rn_end n)) eqn:K.
    + apply Qle_bool_iff in K. unfold set_track_total. rewrite (getitem_ready _ _ _ R).
      destruct R as [RI [RR [RT RB]]]. rewrite RR.
      set (q1 := q_set_total q (rn_end n)). set (s2 := put_track s id q1).
      assert (U : upd s s2 id q1) by (apply upd_put; auto).
      assert (R2 : ready s2 id q1) by (apply (ready_upd s s2 id q q1); [unfold ready; auto|exact U]).
      rewrite (get_track_ready _ _ _ _ _ _ R2).
      pose proof (time_signature_ok times (rn_start n) G NS) as TS.
      destruct (time_signature times (rn_start n)) as [nu de] eqn:TE.
      destruct (pow_land _ TS) as [L1 [L2 L3]]. cbn [fst snd] in *. destruct TS as [TS _]. cbn [fst] in TS.
      unfold n_new. cbn [n_end n_start n_num n_den n_pitch n_velocity n_program n_instrument n_voice n_drum n_qs n_qe].
      replace (Qle_bool (rn_end n) (rn_start n)) with false by (symmetry; apply Qle_bool_false; auto).
      replace (nu <=? 0) with false by (symmetry; apply Z.leb_gt; lia).
      rewrite L1. cbn [negb].
      unfold clamp_warn. replace ((0 <=? rn_pitch n) && (rn_pitch n <=? 127)) with true by (symmetry; apply andb_true_iff; split; apply Z.leb_le; lia).
      replace ((0 <=? rn_vel n) && (rn_vel n <=? 127)) with true by (symmetry; apply andb_true_iff; split; apply Z.leb_le; lia).
      replace (Z.min (Z.max 0 (ri_prog i)) 255) with (ri_prog i) by lia.
      replace (Z.min (Z.max (ri_prog i) 0) 127) with (ri_prog i) by lia.
      replace (Z.max (Z.min nu 255) 1) with nu by lia. replace (Z.max (Z.min de 255) 1) with de by lia.
      set (nt := mkN (rn_pitch n) (rn_vel n) (ri_prog i) (ri_prog i) 0 nu de (ri_drum i) (rn_start n) (rn_end n) (-1) (-1)).
      assert (NT : conv times i n = nt) by (unfold conv; rewrite TE; reflexivity).
      unfold q_add_note. cbn [nt n_instrument n_drum]. replace (i_num (q_instr q1)) with (ri_prog i) by (symmetry; exact IN).
      rewrite Z.eqb_refl. cbn [negb].
      match goal with |- exists _ _ _, (_, (put_track s2 id ?q2, _)) = _ /\ _ => set (q' := q2) end.
      assert (ET : q_total q' = rn_end n).
      { unfold q', q_set_total. cbn [q_total]. unfold q1, q_set_total. destruct (ri_drum i); cbn [q_total nt n_end];
          rewrite (qmaxb_pos (rn_end n)) by lra; rewrite qmaxb_self; apply qmaxb_pos; lra. }
      exists (put_track s2 id q'), (if Qle_bool total (rn_end n) then rn_end n else total), q'.
      split; [reflexivity|]. split; [eapply upd_trans; [exact U|apply upd_put; apply R2]|].
      split; [unfold same_meta, q', q1, q_set_total; destruct (ri_drum i); cbn; auto|].
      rewrite ET. split; [lra|].
      split; [destruct (Qle_bool total (rn_end n)) eqn:E; [lra|apply Qle_bool_false in E; lra]|].
      split.
      * destruct TOK as [K1 K2]. split.
        -- intros m Hm Hb. apply in_app_iff in Hm.
           destruct (Qle_bool total (rn_end n)) eqn:E; [apply Qle_bool_iff in E|apply Qle_bool_false in E];
             (destruct Hm as [Hm|[<-|[]]]; [apply K1 in Hm; auto; lra|lra]).
        -- right. destruct (Qle_bool total (rn_end n)) eqn:E; [apply Qle_bool_iff in E|apply Qle_bool_false in E].
           ++ exists n. split; [apply in_app_iff; simpl; auto|]. split; auto. lra.
           ++ destruct K2 as [[K2 _]|[m [M1 M2]]]; [lra|]. exists m. split; auto. apply in_app_iff; auto.
      * intros r. cbn [map]. rewrite NT.
        assert (EN : q_notes q' = q_notes q ++ [nt]).
        { unfold q_notes, q', q1, q_set_total. destruct (ri_drum i) eqn:DR; cbn; rewrite ID; reflexivity. }
        rewrite EN, <- app_assoc. reflexivity.
    + apply Qle_bool_false in K. exists s, total, q. split; auto. split; [apply upd_refl; apply R|]. split; [apply same_meta_refl|].
      split; auto. split; auto. split; auto.
      destruct TOK as [K1 K2]. split.
      * intros m Hm Hb. apply in_app_iff in Hm. destruct Hm as [Hm|[<-|[]]]; auto. lra.
      * destruct K2 as [[K2 _]|[m [M1 M2]]]; [lra|]. right. exists m. split; auto. apply in_app_iff; auto.
Qed.

Lemma notes_loop : forall times id i l s total q seen,
  (forall x, In x times -> pow_ok (g_data x)) -> ready s id q ->
  i_num (q_instr q) = ri_prog i -> i_drum (q_instr q) = ri_drum i -> 0 <= ri_prog i < 128 -> Forall note_ok l ->
  (0 <= q_total q)%Q -> (q_total q <= total)%Q -> tot_ok seen total ->
  exists s' total' q', each (read_note times id i) (s, total) l = (Ok tt, (s', total')) /\
    upd s s' id q' /\ same_meta q q' /\ (0 <= total')%Q /\ tot_ok (seen ++ l) total' /\
    q_notes q' = q_notes q ++ map (conv times i) (kept (q_total q) l).
Proof.
  intros times id i. induction l as [|n l IH]; intros s total q seen G R IN ID PR NO T0 T1 TOK; cbn [each].
  - exists s, total, q. cbn [kept map]. rewrite !app_nil_r. split; auto. split; [apply upd_refl; apply R|].
    split; [apply same_meta_refl|]. split; [lra|]. auto.
  - inversion NO as [|? ? Nn Nl]; subst.
    destruct (read_note_ok times id i s total q n seen G R IN ID PR Nn T0 T1 TOK) as [s1 [t1 [q1 [E [U [M [A [B [C D]]]]]]]]].
    rewrite E.
    destruct (IH s1 t1 q1 (seen ++ [n])) as [s2 [t2 [q2 [E2 [U2 [M2 [A2 [B2 C2]]]]]]]]; auto.
    + eapply ready_upd; eauto. + rewrite (proj1 M); auto. + rewrite (proj1 M); auto.
    + exists s2, t2, q2. rewrite E2. split; auto. split; [eapply upd_trans; eauto|]. split; [eapply same_meta_trans; eauto|].
      split; auto. rewrite <- app_assoc in B2. split; auto. rewrite C2, <- D. reflexivity.
Qed.

(** All instruments. *)
Fixpoint number {A} (k : Z) (l : list A) : list (Z * A) :=
  match l with [] => [] | a :: r => (k, a) :: number (k + 1) r end.
Lemma enumerate_number : forall A (l : list A), enumerate l = number 0 l.
Proof.
  intros A l. unfold enumerate. change 0 with (Z.of_nat 0). generalize 0%nat.
  induction l as [|a l IH]; intros k; simpl; auto. rewrite IH. f_equal. f_equal. lia.
Qed.
(** Tracks 0..n-1 exist, are registered under their own number, and satisfy [P]. *)
Definition tracks_are (n : Z) (P : Z -> seq -> Prop) (s : mseqs) : Prop :=
  tinv s /\ (forall j, reg s j = if (0 <=? j) && (j <? n) then Some j else None) /\
  (forall j, 0 <= j < n -> exists q, trk s j = Some q /\ P j q) /\
  (forall j, ~ 0 <= j < n -> trk s j = None).
Lemma create_new : forall s n P i, tracks_are n P s -> 0 <= n -> 0 <= ri_prog i < 128 ->
  exists ins s', ms_create s n (ri_prog i) (ri_name i) (ri_drum i) = (Ok n, s') /\
    i_num ins = ri_prog i /\ i_drum ins = ri_drum i /\
    tracks_are (n + 1) (fun j q => if j =? n then q = q_new [] ins (m_res s) else P j q) s' /\ m_res s' = m_res s.
Proof.
  intros s n P i [I [R [T N]]] B PR. unfold ms_create.
  replace ((0 <=? ri_prog i) && (ri_prog i <? 128)) with true by (symmetry; apply andb_true_iff; split; [apply Z.leb_le|apply Z.ltb_lt]; lia).
  cbn [negb]. rewrite R. replace ((0 <=? n) && (n <? n)) with false by (symmetry; apply andb_false_iff; right; apply Z.ltb_ge; lia).
  unfold i_new. replace ((0 <=? ri_prog i) && (ri_prog i <=? 255)) with true by (symmetry; apply andb_true_iff; split; apply Z.leb_le; lia).
  cbn [negb]. set (ins := mkI _ _ _). exists ins. eexists. split; [reflexivity|].
  split; [cbn; unfold clamp255; lia|]. split; [reflexivity|].
  destruct (trk_put s n (q_new [] ins (m_res s)) I) as [I2 G]. split; [|reflexivity]. split; [apply tinv_put_reg; auto|]. split.
  - intros j. rewrite reg_put_reg, reg_put_track, R.
    destruct (Z.eqb_spec n j).
    + subst. replace ((0 <=? j) && (j <? j + 1)) with true by (symmetry; apply andb_true_iff; split; [apply Z.leb_le|apply Z.ltb_lt]; lia). reflexivity.
    + replace (j <? n + 1) with (j <? n); auto. destruct (Z.ltb_spec j n), (Z.ltb_spec j (n + 1)); auto; lia.
  - split.
    + intros j Hj. rewrite trk_put_reg, G. destruct (Z.eqb_spec n j).
      * subst. eexists. split; [reflexivity|]. rewrite Z.eqb_refl. reflexivity.
      * destruct (T j) as [q [Q1 Q2]]; [lia|]. exists q. split; auto. replace (j =? n) with false by (symmetry; apply Z.eqb_neq; lia). auto.
    + intros j Hj. rewrite trk_put_reg, G. replace (n =? j) with false by (symmetry; apply Z.eqb_neq; lia). apply N. lia.
Qed.
(** The notes of track [j] once read. *)
Definition read_track (times : list (sig (Z * Z))) (resolution : Z) (i : rinst) (q : seq) : Prop :=
  i_num (q_instr q) = ri_prog i /\ i_drum (q_instr q) = ri_drum i /\ q_res q = resolution /\
  q_notes q = map (conv times i) (kept 0 (ri_notes i)).
Lemma tot_zero : tot_ok [] 0%Q.
Proof. split; [intros n []|]. left. split; [reflexivity|intros n []]. Qed.
Lemma read_notes_ok : forall times l pre s total,
  (forall x, In x times -> pow_ok (g_data x)) -> Forall inst_ok (pre ++ l) -> (List.length (pre ++ l) <= 128)%nat ->
  let n := Z.of_nat (List.length pre) in
  let P k := fun j q => 0 <= j < k /\ exists i, nth_error (pre ++ l) (Z.to_nat j) = Some i /\ read_track times (m_res s) i q /\ q_ccs q = [] /\ q_bends q = [] in
  tracks_are n (P n) s -> (0 <= total)%Q -> tot_ok (flat_map ri_notes pre) total ->
  exists s' total', each (read_inst fst (fun st s => (s, snd st)) (fun id i st => each (read_note times id i) st (ri_notes i))) (s, total) (number n l) = (Ok tt, (s', total')) /\
    let k := Z.of_nat (List.length (pre ++ l)) in
    tracks_are k (P k) s' /\ m_res s' = m_res s /\ (0 <= total')%Q /\ tot_ok (flat_map ri_notes (pre ++ l)) total'.
Proof.
  intros times. induction l as [|i l IH]; intros pre s total G F LEN n P TR T0 TOK.
  - cbn [number each]. exists s, total. rewrite app_nil_r in *. split; auto.
  - cbn [number each]. unfold read_inst at 1. cbn [fst snd].
    assert (Li : List.length (pre ++ i :: l) = S (List.length pre + List.length l)) by (rewrite app_length; simpl; lia).
    assert (Fi : inst_ok i) by (rewrite Forall_forall in F; apply F; apply in_app_iff; simpl; auto).
    destruct Fi as [Fp [Fn Fr]].
    destruct (create_new s n (P n) i TR ltac:(subst n; lia) Fp) as [ins [s1 [E [E1 [E2 [TR1 M1]]]]]]. rewrite E.
    destruct TR1 as [I1 [R1 [T1 N1]]].
    destruct (T1 n) as [q [Q1 Q2]]; [subst n; lia|]. rewrite Z.eqb_refl in Q2.
    assert (RD : ready s1 n q).
    { unfold ready. split; auto. split; [|split; auto; subst n; lia]. rewrite R1.
      replace ((0 <=? n) && (n <? n + 1)) with true; auto. symmetry; apply andb_true_iff; split; [apply Z.leb_le; subst n|apply Z.ltb_lt]; lia. }
    assert (IQ : q_instr q = ins) by (subst q; reflexivity).
    assert (QT : q_total q = 0%Q) by (subst q; reflexivity).
    destruct (notes_loop times n i (ri_notes i) s1 total q (flat_map ri_notes pre) G RD) as [s2 [t2 [q2 [L1 [L2 [L3 [L4 [L5 L6]]]]]]]]; auto; try (rewrite IQ; auto); try (rewrite QT; lra).
    rewrite L1.
    specialize (IH (pre ++ [i]) s2 t2).
    assert (AP : (pre ++ [i]) ++ l = pre ++ i :: l) by (rewrite <- app_assoc; reflexivity).
    rewrite AP in IH. cbv zeta in IH.
    assert (NN : Z.of_nat (List.length (pre ++ [i])) = n + 1) by (rewrite app_length; simpl; subst n; lia).
    rewrite NN in IH. destruct L2 as [U1 [U2 [U3 U4]]].
    assert (MR : m_res s2 = m_res s) by congruence. rewrite MR in IH.
    destruct (IH G F LEN) as [s' [t' [A1 [A2 [A3 [A4 A5]]]]]]; auto.
    + split; auto. split; [intros j; rewrite U2; apply R1|]. split.
      * intros j Hj. rewrite U4. destruct (Z.eqb_spec n j).
        -- subst j. exists q2. split; auto. split; [lia|]. exists i.
           split; [subst n; rewrite Nat2Z.id; rewrite nth_error_app2 by lia; rewrite Nat.sub_diag; reflexivity|].
           destruct L3 as [X1 [X2 [X3 [X4 X5]]]]. split; [|rewrite X2, X3; subst q; cbn; auto].
           unfold read_track. rewrite X1, IQ, X4. split; auto. split; auto. split; [subst q; cbn; auto|].
           rewrite L6, QT. replace (q_notes q) with (@nil note); auto. subst q. rewrite notes_new. reflexivity.
        -- destruct (T1 j) as [q' [Y1 Y2]]; [lia|]. replace (j =? n) with false in Y2 by (symmetry; apply Z.eqb_neq; lia).
           exists q'. split; auto. destruct Y2 as [_ Y2]. split; auto.
      * intros j Hj. rewrite U4. replace (n =? j) with false by (symmetry; apply Z.eqb_neq; subst n; lia). auto.
    + rewrite flat_map_app. simpl. rewrite app_nil_r. auto.
    + exists s', t'. split; auto.
Qed.
