(** Lemmas for leading class numbers back to notes. *)
From Coq Require Import Sorted Permutation Lia.
From Verif Require Import PyBase L_Base M_Note L_Note M_Events M_Seq S_Seq M_Chord M_Graph S_Graph L_Chord L_Chord2 L_Chord3 L_Graph L_Graph2 L_Graph3 L_Graph4 L_Graph5 L_Graph6 L_Graph9 L_Graph11 S_Decode.
Open Scope Z_scope.

Lemma each_inv_in : forall A T (f : T -> A -> res unit * T) (P : T -> Prop) (Q : A -> Prop), (forall t a, Q a -> P t -> P (snd (f t a))) -> forall l t, Forall Q l -> P t -> P (snd (each f t l)).
Proof.
  intros A T f P Q H l. induction l as [|a l IH]; intros t F Pt; cbn [each]; auto. inversion F; subst. specialize (H t a H2 Pt). destruct (f t a) as [[u|e] t']; cbn in *; auto.
Qed.
Definition honest (e : env) (N : Z) (P : Z -> Prop) (b : builder) : Prop := forall h ch, dict_get Z.eqb h (b_h2n b) = Some ch -> small N P ch /\ e_shash e ch = h.
Lemma register_h2n : forall b h ch, b_h2n (register b h ch) = dict_set Z.eqb h ch (b_h2n b).
Proof. intros. unfold register. cbv zeta. destruct (dict_get _ _ (b_h2i b)); reflexivity. Qed.
Lemma register_honest : forall e N P b ch, small N P ch -> honest e N P b -> honest e N P (register b (e_shash e ch) ch).
Proof.
  intros e N P b ch S0 H h x. rewrite register_h2n, (dict_get_set Z.eqb Z.eqb_spec). destruct (Z.eqb_spec (e_shash e ch) h) as [<-|NE]; [|apply H].
  intros E. injection E as <-. auto.
Qed.
Lemma chunk_small : forall N (P : Z -> Prop) size key f notes gs g cs chunk, groups_of key f notes gs -> In g gs -> splits size g cs -> In chunk cs -> size <= N -> (forall n, In n notes -> P (n_pitch n)) -> small N P chunk.
Proof.
  intros N P size key f notes gs g cs chunk (ks & _ & F & _) G (ND & IN & SF & _) C LE HP. rewrite Forall_forall in SF. destruct (SF chunk C) as [_ L].
  split; [eapply NoDup_concat_in; eauto|]. split; [lia|]. apply Forall_forall. intros p PI. assert (PC : In p (List.concat cs)) by (apply in_concat; eauto).
  apply IN in PC as [n [NI <-]]. apply HP. clear - F G NI. induction F as [|k x ks gs [S1 _] _ IH]; [destruct G|]. destruct G as [->|G]; [|auto].
  clear IH. induction S1 as [|y l1 l2 _ _ IH|y l1 l2 _ _ IH]; [destruct NI|destruct NI as [->|NI]; [left; auto|right; auto]|right; auto].
Qed.
Lemma sequence_honest : forall e N P b s c g, env_ok e -> c_size c <= N -> pitches_in P s -> honest e N P b -> honest e N P (snd (build_sequence e b s c g)).
Proof.
  intros e N P b s c g EO CS PI H. unfold build_sequence.
  destruct (Z.leb_spec (c_size c) 0) as [|CP]; [exact H|]. cbn [orb]. destruct (128 <? c_size c); [exact H|]. destruct (_ <=? 0); [exact H|]. destruct (_ || _); [exact H|].
  destruct (compute_data _ _ _ _ _ _) as [[[|d data] lg]|x] eqn:CD; [exact H| |exact H].
  destruct (match g with None => _ | Some _ => _ end) as [[g0 lst]|x]; [|exact H].
  pose proof (compute_groups e s _ _ _ _ CD) as GO. cbv zeta in GO.
  assert (I : honest e N P (fst (fst (snd (each (visit_group e c) (b, g0, lst) (in_key_order (d :: data))))))).
  { apply (each_inv_in _ _ (visit_group e c) (fun t => honest e N P (fst (fst t))) (fun gr => In gr (in_key_order (d :: data)))); [|apply Forall_forall; auto|exact H]. intros t a IA Ht. unfold visit_group.
    apply (each_inv_in _ _ (visit e c a) (fun t => honest e N P (fst (fst t))) (small N P)); [| |exact Ht].
    - intros [[b0 gg] l0] ch NN Hb. unfold visit. destruct (if c_velocity c then _ else _) as [v|x]; [|exact Hb]. destruct (create_tensor _ _ _ _ _); apply register_honest; auto.
    - apply Forall_forall. intros ch CH. eapply chunk_small; [exact GO|exact IA|apply split_chord_splits; [exact EO|exact CP|]|exact CH|exact CS|exact PI].
      destruct GO as (ks & _ & F & _). clear - F IA. induction F as [|k x ks gs [_ [NE _]] _ IH]; [destruct IA|]. destruct IA as [<-|IA]; auto. }
  destruct (each (visit_group e c) (b, g0, lst) (in_key_order (d :: data))) as [[u|x] [[b1 g1] l1]]; exact I.
Qed.
(** The nodes of a graph show the notes of their hash. *)
Definition shows (e : env) (K : config -> Prop) (N : Z) (P : Z -> Prop) (g : digraph) : Prop :=
  Forall (fun n => exists x l c group chunk, snd n = NChord x l (fst n) /\ K c /\ small N P chunk /\ Z.of_nat (List.length chunk) <= c_size c /\ fst n = e_shash e chunk /\ feature c group chunk x) (g_nodes g).
Lemma sequence_shows : forall e (K : config -> Prop) N P b s c g g' b', env_ok e -> K c -> c_size c <= N -> pitches_in P s -> build_sequence e b s c g = (Ok g', b') -> (match g with Some g0 => shows e K N P g0 | None => True end) -> shows e K N P g'.
Proof.
  intros e K N P b s c g g' b' EO KC CS PI H G. destruct (build_attrs e b s c g g' b' EO H) as (key & gs & _ & GO & F). unfold shows. rewrite Forall_forall in *. intros n IN.
  destruct (F n IN) as [(notes & cs & chunk & x & l & IG & SP & IC & H1 & H2 & H3 & _)|X].
  - exists x, l, c, notes, chunk. split; [exact H3|]. split; [exact KC|]. split; [eapply chunk_small; eauto|]. destruct SP as (_ & _ & SF & _). rewrite Forall_forall in SF. destruct (SF chunk IC) as [_ LE]. auto.
  - destruct g as [g0|]; [|destruct X]. unfold shows in G. rewrite Forall_forall in G. apply G, X.
Qed.
Definition all_show (e : env) (K : config -> Prop) (N : Z) (P : Z -> Prop) (b : builder) : Prop := honest e N P b /\ forall p, In p (b_pyg b) -> shows e K N P (p_graph p).
Lemma tracks_show : forall e (K : config -> Prop) N P conv c per l b large, env_ok e -> K c -> c_size c <= N -> Forall (pitches_in P) l -> all_show e K N P b -> (match large with Some g => shows e K N P g | None => True end) ->
  all_show e K N P (snd (build_tracks e conv c per b large l)) /\ (forall g, fst (build_tracks e conv c per b large l) = Ok (Some g) -> shows e K N P g).
Proof.
  intros e K N P conv c per l b large EO KC CS. revert b large. induction l as [|s l IH]; intros b large FP H R; cbn [build_tracks].
  - split; [exact H|]. intros g E. cbn in E. apply Ok_inj in E. subst. exact R.
  - inversion FP as [|? ? PS FP']; subst. destruct (i_drum (q_instr s)); [apply IH; auto|]. destruct (Nat.eqb _ _); [apply IH; auto|].
    pose proof (sequence_honest e N P b s c (if per then None else large) EO CS PS (proj1 H)) as SH. pose proof (sequence_grows e b s c (if per then None else large)) as [_ [SP SS]].
    pose proof (fun g' b' E => sequence_shows e K N P b s c (if per then None else large) g' b' EO KC CS PS E) as SQ.
    destruct (build_sequence e b s c (if per then None else large)) as [[g|x] b1]; cbn [fst snd] in *.
    + assert (G : shows e K N P g) by (apply (SQ g b1 eq_refl); destruct per; auto).
      assert (N1 : all_show e K N P b1) by (split; [exact SH|rewrite SP; apply H]).
      destruct (g_nodes g) as [|n0 l0]; [apply IH; auto|]. destruct per; [|apply IH; auto]. destruct (conv g); [split; [exact N1|discriminate]|].
      apply IH; [exact FP'| |exact R]. split; [exact SH|]. cbn. intros p PP. apply in_app_or in PP as [PP|[<-|[]]]; [apply N1; exact PP|exact G].
    + split; [split; [exact SH|rewrite SP; apply H]|discriminate].
Qed.
Lemma do_shows : forall e (K : config -> Prop) N P b o, env_ok e -> builds_with K N P o -> all_show e K N P b -> all_show e K N P (b_do e b o).
Proof.
  intros e K N P b [conv l c per|s c g|skip sanity s] EO B H; cbn [b_do builds_with] in *.
  - destruct B as (B1 & B2 & B3). unfold build. pose proof (tracks_show e K N P conv c per l b None EO B1 B2 B3 H I) as [T1 T2].
    destruct (build_tracks e conv c per b None l) as [[[g|]|x] b1]; cbn [fst snd] in *; auto. destruct (conv g); cbn [snd]; auto.
    split; [apply T1|]. cbn. intros p PP. apply in_app_or in PP as [PP|[<-|[]]]; [apply T1; exact PP|apply T2; reflexivity].
  - destruct B as (B1 & B2 & B3). split; [apply sequence_honest; auto; apply H|]. destruct (sequence_grows e b s c g) as [_ [-> _]]. apply H.
  - destruct H as [H HN]. assert (E : forall p r, b_pyg b = p :: r -> forall p', p_graph p' = p_graph p -> all_show e K N P (with_pyg b (p' :: r) (b_sub b))).
    { intros p r E p' PP. split; [exact H|]. cbn. intros q [<-|Q]; [rewrite PP|]; apply HN; rewrite E; [left|right]; auto. }
    destruct s; unfold graphs_next.
    + destruct (b_h2n b) as [|kv kvs]; [split; auto|]. destruct (sanity && _); [split; auto|]. destruct (b_pyg b) as [|p r] eqn:E2; [split; [exact H|cbn [fst snd]; rewrite E2; intros q []]|].
      destruct (lookup_all _ _); cbn [fst snd]; [|split; [exact H|cbn [fst snd]; rewrite E2; exact HN]]. destruct (sanity && _); apply (E p r eq_refl); reflexivity.
    + split; [exact H|]. intros p [].
    + split; auto.
Qed.
Lemma run_shows : forall e (K : config -> Prop) N P ops b, env_ok e -> Forall (builds_with K N P) ops -> all_show e K N P b -> all_show e K N P (b_run e b ops).
Proof.
  intros e K N P. induction ops as [|o ops IH]; intros b EO F H; cbn; auto. inversion F; subst. apply IH; auto. apply do_shows; auto.
Qed.
Lemma run_honest : forall e (K : config -> Prop) N P ops, env_ok e -> Forall (builds_with K N P) ops -> honest e N P (b_run e b_new ops).
Proof. intros e K N P ops EO F. destruct (run_shows e K N P ops b_new EO F) as [H _]; [split; [discriminate|intros q []]|exact H]. Qed.
(** What a hash or class number stands for stays. *)
Lemma notes_stable : forall e K N P ops more i l, env_ok e -> no_collisions e N P -> Forall (builds_with K N P) (ops ++ more) -> notes_of (b_run e b_new ops) i = Some l ->
  exists l', notes_of (b_run e b_new (ops ++ more)) i = Some l' /\ Permutation l l'.
Proof.
  intros e K N0 P0 ops more i l EO NC FB H. unfold notes_of in *. destruct (dict_get Z.eqb i (b_i2h (b_run e b_new ops))) as [h|] eqn:E; [|discriminate].
  destruct (run_numbered e ops) as [hs N]. assert (RA : b_run e b_new (ops ++ more) = b_run e (b_run e b_new ops) more) by (unfold b_run; apply fold_left_app).
  destruct (run_grows e more _ hs N) as [m M]. rewrite <- RA in M. destruct N as (_ & _ & _ & B). apply B in E. destruct E as [E1 E2].
  assert (E' : dict_get Z.eqb i (b_i2h (b_run e b_new (ops ++ more))) = Some h).
  { destruct M as (_ & _ & _ & B'). apply B'. split; [exact E1|]. rewrite nth_error_app1; [exact E2|apply nth_error_Some; congruence]. }
  rewrite E'. destruct M as (_ & KM & _ & _).
  assert (IK : In h (map fst (b_h2n (b_run e b_new (ops ++ more))))) by (rewrite KM; apply in_or_app; left; eapply nth_error_In; eauto).
  destruct (dict_get Z.eqb h (b_h2n (b_run e b_new (ops ++ more)))) as [l'|] eqn:G.
  - exists l'. split; [reflexivity|]. pose proof FB as FB'. apply Forall_app in FB' as [F1 _]. destruct (run_honest e K N0 P0 ops EO F1 h l H) as [A1 A2].
    destruct (run_honest e K N0 P0 (ops ++ more) EO FB h l' G) as [C1 C2]. apply NC; auto. congruence.
  - exfalso. clear - IK G. induction (b_h2n (b_run e b_new (ops ++ more))) as [|[k v] d IH]; [destruct IK|]. cbn in *. destruct (Z.eqb_spec k h); [discriminate|]. destruct IK; [congruence|auto].
Qed.

(** Class numbers of a graph and its nodes. *)
Lemma known_notes : forall e K N P ops h i, dict_get Z.eqb h (b_h2i (b_run e b_new ops)) = Some i -> env_ok e -> Forall (builds_with K N P) ops ->
  exists l, notes_of (b_run e b_new ops) i = Some l /\ small N P l /\ e_shash e l = h.
Proof.
  intros e K N P ops h i H EO FB. destruct (run_numbered e ops) as [hs (_ & KM & A & B)]. apply A in H. unfold notes_of.
  replace (dict_get Z.eqb i (b_i2h (b_run e b_new ops))) with (Some h) by (symmetry; apply B; exact H).
  assert (IK : In h (map fst (b_h2n (b_run e b_new ops)))) by (rewrite KM; destruct H; eapply nth_error_In; eauto).
  destruct (dict_get Z.eqb h (b_h2n (b_run e b_new ops))) as [l|] eqn:G.
  - exists l. split; [reflexivity|]. apply (run_honest e K N P ops EO FB h l G).
  - exfalso. clear - IK G. induction (b_h2n (b_run e b_new ops)) as [|[k v] d IH]; [destruct IK|]. cbn in *. destruct (Z.eqb_spec k h); [discriminate|]. destruct IK; [congruence|auto].
Qed.
Lemma lookup_F2 : forall m l is, lookup_all m l = Ok is -> Forall2 (fun h i => dict_get Z.eqb h m = Some i) l is.
Proof.
  intros m. induction l as [|h l IH]; intros is H; cbn in H; [apply Ok_inj in H; subst; constructor|].
  destruct (dict_get Z.eqb h m) as [i|] eqn:E; [|discriminate]. destruct (lookup_all m l) as [r|]; [|discriminate]. cbn in H. apply Ok_inj in H. subst. constructor; auto.
Qed.
Lemma next_decodes : forall e (K : config -> Prop) N P ops more skip p b' s', env_ok e -> no_collisions e N P -> Forall (builds_with K N P) (ops ++ more) ->
  graphs_next (b_run e b_new ops) skip false GStart = (Ok p, b', s') ->
  exists is, p_y p = Some is /\ Forall2 (decodes K (b_run e b' more)) is (g_nodes (p_graph p)).
Proof.
  intros e K N P ops more skip p b' s' EO NC FB H.
  assert (RB : b_run e b' more = b_run e b_new (ops ++ ONext skip false GStart :: more)).
  { unfold b_run. rewrite fold_left_app. cbn [fold_left b_do]. fold (b_run e b_new ops). rewrite H. reflexivity. }
  assert (FB2 : Forall (builds_with K N P) (ops ++ ONext skip false GStart :: more)).
  { apply Forall_app in FB as [F1 F2]. apply Forall_app. split; [exact F1|]. constructor; [exact I|exact F2]. }
  apply Forall_app in FB as [F _].
  destruct (run_shows e K N P ops b_new EO F) as [_ SH]; [split; [discriminate|intros q []]|].
  unfold graphs_next in H. destruct (b_h2n (b_run e b_new ops)) as [|kv kvs] eqn:E1; [discriminate|]. cbn [andb] in H. destruct (b_pyg (b_run e b_new ops)) as [|p0 r] eqn:E2; [discriminate|].
  destruct (lookup_all (b_h2i (b_run e b_new ops)) (node_hashes p0)) as [is|] eqn:LK; [|discriminate]. injection H as <- <- <-. cbn [p_y p_graph]. exists is. split; [reflexivity|].
  apply lookup_F2 in LK. unfold node_hashes in LK. specialize (SH p0 ltac:(left; reflexivity)). unfold shows in SH. rewrite RB. clear RB E1 E2.
  remember (g_nodes (p_graph p0)) as ns. clear Heqns. revert is LK. induction SH as [|n ns SN _ IH]; intros is LK; inversion LK as [|? i ? is0 HI HR]; subst; constructor; [|apply IH; exact HR].
  destruct SN as (x & l & c & group & chunk & X1 & X2 & X3 & X4 & X5 & X6). destruct (known_notes e K N P ops (fst n) i HI EO F) as (l0 & N1 & N2 & N3).
  destruct (notes_stable e K N P ops (ONext skip false GStart :: more) i l0 EO NC FB2 N1) as (l1 & M1 & M2).
  exists l1, x, l, c, group, chunk. split; [exact M1|]. split; [exact X1|]. split; [exact X2|]. split; [|split; [exact X4|exact X6]].
  transitivity l0; [|exact M2]. apply NC; auto. congruence.
Qed.
