(** The list of loaded instruments. *)
From Coq Require Import Sorted Permutation Lia.
From Verif Require Import PyBase L_Base M_Load S_Load L_Load L_Load2 L_Load5 M_Write S_Write S_Cut L_Write L_Write2 L_Write3.
Open Scope Z_scope.

Lemma NoDup_snoc : forall A (l : list A) x, NoDup l -> ~ In x l -> NoDup (l ++ [x]).
Proof. intros. apply (Permutation_NoDup (l := x :: l)); [apply Permutation_cons_append|constructor; auto]. Qed.
Lemma get_new_insts : forall dc s pr ch tr, exists L, l_insts (get_new dc s pr ch tr) = l_insts s ++ L /\
  (L = [] \/ exists i, L = [((pr, ch, tr), i)] /\ ~ In (pr, ch, tr) (map fst (l_insts s))).
Proof.
  intros dc s pr ch tr. unfold get_new. destruct (assoc ikey_eqb (pr, ch, tr) (l_insts s)) eqn:E; [exists []; rewrite app_nil_r; auto|].
  assert (N : ~ In (pr, ch, tr) (map fst (l_insts s))) by (apply (assoc_None _ _ ikey_eqb); [apply ikey_eqb_spec|auto]).
  destruct (assoc pair_eqb (ch, tr) (l_strag s)); cbn [l_insts]; eexists; split; try reflexivity; right; eauto.
Qed.
Lemma append_keys : forall s k n, map fst (l_insts (append_note s k n)) = map fst (l_insts s).
Proof. intros. cbn [append_note l_insts]. rewrite map_map. apply map_ext. intros [k' i]. cbn. destruct (ikey_eqb k' k); auto. Qed.
Definition nodup_keys (s : lstate) : Prop := NoDup (map fst (l_insts s)).
Lemma nodup_emit : forall dc s prog tr ch n, nodup_keys s -> nodup_keys (emit dc s prog tr ch n).
Proof.
  intros dc s prog tr ch n H. unfold nodup_keys, emit. rewrite append_keys. destruct (get_new_insts dc s (prog ch) ch tr) as [L [-> [->|[i [-> N]]]]].
  - rewrite app_nil_r. exact H.
  - rewrite map_app. apply NoDup_snoc; auto.
Qed.
Lemma nodup_tracks : forall dc l s tr, nodup_keys s -> nodup_keys (load_tracks dc s tr l).
Proof.
  induction l as [|t l IH]; intros s tr H; cbn [load_tracks]; auto. apply IH. unfold load_track. apply step_inv; auto.
  - intros. apply nodup_emit. auto.
  - intros s1 s2 E. unfold nodup_keys. rewrite E. auto.
Qed.
Lemma in_insts : forall s k i, nodup_keys s -> In (k, i) (l_insts s) -> inst_of s k = Some i.
Proof.
  intros s k i N H. unfold inst_of, nodup_keys in *. induction (l_insts s) as [|[k' i'] l IH]; [destruct H|].
  rewrite assoc_cons. cbn in N. inversion N as [|? ? N1 N2]; subst. destruct (ikey_eqb_spec k' k) as [->|D].
  - destruct H as [H|H]; [injection H as ->; auto|]. exfalso. apply N1. apply in_map_iff. exists (k, i). auto.
  - destruct H as [H|H]; [congruence|]. auto.
Qed.

Definition adds (tr : Z) (l0 : list (ikey * pinst)) (s : lstate) : Prop :=
  exists L, l_insts s = l0 ++ L /\ forall e, In e L -> snd (fst e) = tr.
Lemma adds_emit : forall dc tr l0 s prog ch n, (forall e, In e l0 -> snd (fst e) <> tr) -> adds tr l0 s -> adds tr l0 (emit dc s prog tr ch n).
Proof.
  intros dc tr l0 s prog ch n H [L [E F]]. unfold emit, adds. cbn [append_note l_insts].
  destruct (get_new_insts dc s (prog ch) ch tr) as [L' [-> D]]. rewrite E, <- app_assoc, map_app.
  eexists. split.
  - f_equal. rewrite <- (map_id l0) at 2. apply map_ext_in. intros [[[a b] c] i] K. cbn [fst].
    destruct (ikey_eqb_spec (a, b, c) (prog ch, ch, tr)) as [X|]; auto. injection X as -> -> ->. specialize (H _ K). cbn in H. congruence.
  - intros e K. apply in_map_iff in K as [[k i] [<- K]]. assert (G : snd k = tr).
    { apply in_app_iff in K as [K|K]; [apply (F _ K)|]. destruct D as [->|[i' [-> _]]]; [destruct K|]. destruct K as [K|[]]. injection K as <- <-. reflexivity. }
    cbn [fst]. destruct (ikey_eqb k _); cbn; auto.
Qed.
Lemma tracks_append : forall dc l s tr, (forall e, In e (l_insts s) -> snd (fst e) < tr) ->
  exists Ls, List.length Ls = List.length l /\ l_insts (load_tracks dc s tr l) = l_insts s ++ List.concat Ls /\
    forall j L e, nth_error Ls j = Some L -> In e L -> snd (fst e) = tr + Z.of_nat j.
Proof.
  induction l as [|t l IH]; intros s tr H; cbn [load_tracks].
  - exists []. cbn. rewrite app_nil_r. split; auto. split; auto. intros [|j] L e X; discriminate.
  - assert (A : adds tr (l_insts s) (load_track dc s tr t)).
    { unfold load_track. apply (step_inv (adds tr (l_insts s)) dc tr).
      - intros. apply adds_emit; auto. intros e K X. apply (Z.lt_irrefl tr). rewrite <- X at 1. exact (H e K).
      - intros s1 s2 E [L [E1 F]]. exists L. rewrite E. auto.
      - exists []. rewrite app_nil_r. split; auto. intros e []. }
    destruct A as [L [E F]]. destruct (IH (load_track dc s tr t) (tr + 1)) as [Ls [A1 [A2 A3]]].
    { intros e K. rewrite E in K. apply in_app_iff in K as [K|K]; [eapply Z.lt_trans; [exact (H e K)|lia]|]. rewrite (F e K). lia. }
    exists (L :: Ls). cbn [List.length List.concat]. split; [lia|]. split; [rewrite A2, E, app_assoc; reflexivity|].
    intros [|j] L' e X K; cbn in X; [injection X as <-; rewrite (F e K); lia|]. rewrite (A3 j L' e X K). lia.
Qed.

(** ** One written instrument *)
Lemma run_em_quiet : forall evs prog, (forall e, In e evs -> match snd e with MName _ | MOther | MEnd | MProg _ _ => True | _ => False end) -> run_em prog [] evs = [].
Proof.
  induction evs as [|[t m] l IH]; intros prog H; cbn [run_em]; auto. pose proof (H _ (or_introl eq_refl)) as X. cbn [snd] in X.
  assert (H' : forall e, In e l -> match snd e with MName _ | MOther | MEnd | MProg _ _ => True | _ => False end) by (intros; apply H; right; auto).
  destruct m; try tauto; cbn [ev_em next_o snd fst fin_em flat_map filter app]; apply IH; auto.
Qed.
Lemma quiet_track : forall dc tracks j tk pr ch, nth_error tracks j = Some tk ->
  (forall e, In e tk -> match snd e with MName _ | MOther | MEnd | MProg _ _ => True | _ => False end) -> inst_of (load_file dc tracks) (pr, ch, Z.of_nat j) = None.
Proof.
  intros dc tracks j tk pr ch N H. destruct (inst_of _ _) as [i|] eqn:E; auto. exfalso.
  destruct (has_notes_file dc tracks _ _ E) as [NE _]. apply NE.
  pose proof (load_file_nth dc tracks pr ch j tk N) as L. unfold notes_of in L. rewrite E in L. rewrite L.
  rewrite run_em_quiet; [reflexivity|]. intros e K. assert (G : forall l t x, In x (to_abs t l) -> exists d, In (d, snd x) l).
  { induction l as [|[d m] l IH]; intros t x X; cbn in X; [tauto|]. destruct X as [<-|X]; [exists d; left; auto|]. destruct (IH _ _ X) as [d' D]. exists d'. right; auto. }
  destruct (G tk 0 e K) as [d D]. specialize (H _ D). exact H.
Qed.
Lemma latest_none : forall (l : list event), (forall e s, In e l -> snd e <> MName s) -> forall n, fold_left (fun n (e : event) => match snd e with MName s => s | _ => n end) l n = n.
Proof.
  induction l as [|e l IH]; intros H n; cbn; auto. rewrite IH by (intros; apply H; right; auto).
  specialize (H e). destruct (snd e); auto. exfalso. apply (H s); auto. left; auto.
Qed.
Lemma to_delta_snd : forall l t x, In x (to_delta t l) -> exists d, In (d, snd x) l.
Proof.
  induction l as [|[d m] l IH]; intros t x X; cbn in X; [tauto|]. destruct X as [<-|X]; [exists d; left; auto|]. destruct (IH _ _ X) as [d' D]. exists d'. right; auto.
Qed.

Lemma write_insts_len : forall dc l n, List.length (write_insts dc n l) = List.length l.
Proof. induction l; intros; cbn; auto. Qed.

(** What is loaded for the n-th instrument. *)
Definition loaded_as (s : lstate) (w : winst) (i : pinst) : Prop :=
  pi_prog i = w_prog w /\ pi_drum i = w_drum w /\ pi_name i = w_name w /\
  Permutation (pi_notes i) (w_notes w) /\ StronglySorted (fun a b => pn_end a <= pn_end b) (pi_notes i) /\
  exists bs cs, nth_error (l_cells s) (pi_cell i) = Some (mkC bs cs) /\
     Permutation bs (w_bends w) /\ StronglySorted (fun a b => fst a <= fst b) bs /\
     Permutation cs (w_ccs w) /\ StronglySorted (fun a b => fst (fst a) <= fst (fst b)) cs.

Definition cutw (w : winst) : winst := mkW (w_name w) (w_prog w) (w_drum w) (map (cutn w) (w_notes w)) (w_bends w) (w_ccs w).
Lemma one_loaded : forall dc timing l tracks n w, write_file dc timing l = Ok tracks -> nth_error l n = Some w -> midi_inst w -> struck_apart (w_notes w) ->
  w_notes w <> [] -> let s := load_file dc tracks in exists ins, inst_of s (w_prog w, channel_of dc n w, Z.of_nat (S n)) = Some ins /\ loaded_as s (cutw w) ins.
Proof.
  intros dc timing l tracks n w W N M Q NE s. destruct (roundtrip_cut dc timing l tracks n w W N M Q) as [R1 [R2 R3]].
  destruct (R3 NE) as (ins & bs & cs & I & Pp & Pd & C & B1 & B2 & C1 & C2). fold s in I, C, R1. exists ins. split; auto.
  assert (T : tracks = map (to_delta 0) (timing :: write_insts dc 0 l)).
  { unfold write_file in W. destruct (_ && _); [injection W as <-; reflexivity|discriminate]. }
  set (ch := channel_of dc n w) in *.
  assert (NT : nth_error tracks (S n) = Some (to_delta 0 (write_track ch w))).
  { rewrite T. cbn [map nth_error]. apply map_nth_error. apply (write_insts_nth dc l 0 n w N). }
  destruct (track_shape2 ch w M) as [last [E1 [E2 [E3 E4]]]].
  assert (POS : forall d, In d (to_delta 0 (write_track ch w)) -> 0 <= fst d).
  { apply delta_nonneg; auto. intros e K. rewrite E1 in K. apply in_app_iff in K as [K|[<-|K]].
    - unfold name_ev in K. destruct (String.eqb _ _); cbn in K; [tauto|]. destruct K as [<-|[]]. cbn. lia.
    - cbn. lia.
    - unfold Tail in K. apply in_app_iff in K as [K|[<-|[]]]; [apply E2 in K; lia|]. cbn. destruct (tail_ev ch w) as [|e0 tl] eqn:TE.
      + exfalso. destruct (w_notes w) as [|n0 ?] eqn:WN; [congruence|]. pose proof (tail_perm ch w) as TP. rewrite TE in TP. apply Permutation_sym, Permutation_nil in TP.
        unfold rest_events in TP. rewrite WN in TP. discriminate.
      + pose proof (E2 e0 (or_introl eq_refl)). lia. }
  unfold loaded_as, cutw. cbn [w_prog w_drum w_name w_notes w_bends w_ccs]. split; auto. split; auto. split; [|split; [|split]].
  - pose proof (nth_error_split _ _ NT) as [pre [post [SP LP]]]. rewrite <- LP in I. unfold s in I. rewrite SP in I.
    destruct (names_file _ _ _ _ _ _ _ I) as (l1 & e & l2 & K1 & K2 & K3 & ->). unfold latest_name.
    assert (NN : forall x nm, In x ((0, MProg ch (w_prog w)) :: Tail ch last w) -> snd x <> MName nm).
    { intros x nm [<-|K]; [discriminate|]. apply Tail_In in K; auto. destruct K as [[? [_ [->| ->]]]|[[? [? ->]]|[[? [? [? ->]]]| ->]]]; discriminate. }
    rewrite E1 in K1. unfold name_ev in K1. destruct (String.eqb_spec (w_name w) EmptyString) as [EN|EN].
    + rewrite EN. apply latest_none. intros x nm X. assert (X' : In x (l1 ++ e :: l2)) by (apply in_app_iff; auto). rewrite <- K1 in X'.
      apply to_delta_snd in X' as [d D]. apply (NN _ nm) in D. exact D.
    + destruct l1 as [|x l1].
      * exfalso. cbn [app to_delta] in K1. injection K1 as <- _. apply K3. clear. rewrite (quiet_track dc (pre ++ [[] ++ [(0 - 0, MName (w_name w))]]) (List.length pre) ([] ++ [(0 - 0, MName (w_name w))])); auto.
        -- rewrite nth_error_app2, Nat.sub_diag; auto.
        -- intros e [<-|[]]. cbn. auto.
      * change (([(0, MName (w_name w))] ++ (0, MProg ch (w_prog w)) :: Tail ch last w)) with ((0, MName (w_name w)) :: ((0, MProg ch (w_prog w)) :: Tail ch last w)) in K1.
        cbn [to_delta] in K1. cbn [app] in K1. injection K1 as <- K1. cbn [fold_left snd]. apply latest_none.
        intros y nm Y. assert (Y' : In y (l1 ++ e :: l2)) by (apply in_app_iff; auto). rewrite <- K1 in Y'. change (In y (to_delta (0 + (0 - 0)) ((0, MProg ch (w_prog w)) :: Tail ch last w))) in Y'.
        apply to_delta_snd in Y' as [d D]. apply (NN _ nm) in D. exact D.
  - unfold notes_of in R1. rewrite I in R1. exact R1.
  - destruct (C40_file dc tracks (S n) _ (w_prog w) ch NT POS) as [_ C40]; [rewrite abs_delta; apply write_no_double; auto|].
    unfold notes_of in C40. fold s in C40. rewrite I in C40. exact C40.
  - exists bs, cs. unfold ctrl_of in C. rewrite I in C. auto.
Qed.
Definition playing (w : winst) : bool := match w_notes w with [] => false | _ => true end.
Lemma all_loaded : forall dc timing l tracks, write_file dc timing l = Ok tracks ->
  (forall e, In e timing -> match snd e with MName _ | MOther | MEnd | MProg _ _ => True | _ => False end) ->
  (forall w, In w l -> midi_inst w /\ struck_apart (w_notes w)) ->
  let s := load_file dc tracks in Forall2 (fun w e => loaded_as s (cutw w) (snd e)) (filter playing l) (l_insts s).
Proof.
  intros dc timing l tracks W TQ H s.
  assert (T : tracks = map (to_delta 0) (timing :: write_insts dc 0 l)).
  { unfold write_file in W. destruct (_ && _); [injection W as <-; reflexivity|discriminate]. }
  assert (ND : nodup_keys s) by (unfold s, load_file; apply nodup_tracks; constructor).
  destruct (tracks_append dc (map (to_abs 0) tracks) l_empty 0) as [Ls [A1 [A2 A3]]]; [intros e []|].
  change (load_tracks dc l_empty 0 (map (to_abs 0) tracks)) with s in A2. cbn [l_empty l_insts app] in A2.
  rewrite T in A1. rewrite map_map in A1. cbn [map List.length] in A1. rewrite map_length, write_insts_len in A1.
  destruct Ls as [|L0 Ls]; [discriminate|]. cbn [List.length] in A1. injection A1 as A1.
  assert (Z0 : L0 = []).
  { destruct L0 as [|[[[a b] c] i] L0]; auto. exfalso. pose proof (A3 0%nat _ _ eq_refl (or_introl eq_refl)) as K. cbn in K. subst c.
    assert (I : inst_of s (a, b, 0) = Some i) by (apply in_insts; auto; rewrite A2; cbn; auto).
    unfold s in I. rewrite (quiet_track dc tracks 0 (to_delta 0 timing)) in I; [discriminate| |].
    - rewrite T. reflexivity.
    - intros e K. apply to_delta_snd in K as [d D]. apply (TQ _ D). }
  subst L0. cbn [List.concat app] in A2. rewrite A2.
  assert (G : forall n w L, nth_error l n = Some w -> nth_error Ls n = Some L -> if playing w then exists e, L = [e] /\ loaded_as s (cutw w) (snd e) else L = []).
  { intros n w L Nw NL. destruct (H w (nth_error_In _ _ Nw)) as [Mw Sw].
    destruct (roundtrip_cut dc timing l tracks n w W Nw Mw Sw) as [R1 [R2 _]]. fold s in R1, R2.
    assert (EL : forall e, In e L -> fst e = (w_prog w, channel_of dc n w, Z.of_nat (S n)) /\ inst_of s (fst e) = Some (snd e)).
    { intros [[[a b] c] i] K. pose proof (A3 (S n) L _ NL K) as X. change (c = Z.of_nat (S n)) in X. subst c.
      assert (I : inst_of s (a, b, Z.of_nat (S n)) = Some i).
      { apply in_insts; auto. rewrite A2. apply in_concat. exists L. split; auto. eapply nth_error_In; eauto. }
      split; [|exact I]. cbn [fst]. destruct (pair_eqb_spec (a, b) (w_prog w, channel_of dc n w)) as [X|X]; [injection X as -> ->; auto|].
      rewrite (R2 a b X) in I. discriminate. }
    destruct (playing w) eqn:PW.
    - destruct (one_loaded dc timing l tracks n w W Nw Mw Sw) as [ins [I LI]]; [unfold playing in PW; destruct (w_notes w); congruence|].
      fold s in I, LI. pose proof I as I'. apply (assoc_In _ _ _ _ _ _ ikey_eqb_spec) in I'. rewrite A2 in I'. apply in_concat in I' as [L' [L1 L2]].
      apply In_nth_error in L1 as [m NM]. pose proof (A3 (S m) L' _ NM L2) as X. cbn [fst snd] in X. assert (m = n) by lia. subst m. rewrite NL in NM. injection NM as <-.
      exists ((w_prog w, channel_of dc n w, Z.of_nat (S n)), ins). split; [|exact LI].
      assert (NDL : NoDup (map fst L)).
      { unfold nodup_keys in ND. rewrite A2 in ND. apply nth_error_split in NL as [x [y [-> _]]]. rewrite concat_app in ND. cbn in ND. rewrite !map_app in ND.
        clear - ND. induction (map fst (List.concat x)) as [|z zs IH]; cbn in ND; [|inversion ND; auto].
        induction (map fst L) as [|u us IH2]; [constructor|]. cbn in ND. inversion ND as [|? ? X Y]; subst. constructor; [|apply IH2; auto]. intros K; apply X; apply in_app_iff; auto. }
      destruct L as [|e [|e' L]]; [destruct L2| |].
      + destruct L2 as [->|[]]. reflexivity.
      + exfalso. destruct (EL e (or_introl eq_refl)) as [X1 _]. destruct (EL e' (or_intror (or_introl eq_refl))) as [X2 _].
        cbn in NDL. inversion NDL as [|? ? Y _]; subst. apply Y. left. congruence.
    - destruct L as [|e L]; auto. exfalso. destruct (EL e (or_introl eq_refl)) as [X1 X2]. rewrite X1 in X2.
      unfold notes_of in R1. rewrite X2 in R1. unfold playing in PW. destruct (w_notes w); [|discriminate]. apply Permutation_sym, Permutation_nil in R1.
      destruct (has_notes_file dc tracks _ _ X2) as [NE _]. apply NE. exact R1. }
  clear - G A1. revert Ls A1 G. induction l as [|w l IH]; intros [|L Ls] A1 G; try discriminate; [constructor|].
  cbn [filter List.concat]. specialize (IH Ls ltac:(cbn in A1; lia) (fun n => G (S n))). pose proof (G 0%nat w L eq_refl eq_refl) as G0.
  destruct (playing w); [destruct G0 as [e [-> K]]; cbn; constructor; auto|subst L; exact IH].
Qed.
