(** Lemmas for building graphs in double precision.  The parts about tracks follow L_Graph2, L_Graph4, L_Graph5, L_Graph9. *)
From Coq Require Import Sorted Permutation QArith Qabs Qround Lia Lqa.
From Verif Require Import PyBase L_Base L_Note M_Note M_Events M_Ticks M_Seq S_Seq M_Chord M_Graph S_Graph M_Float L_Float M_Snap S_Snap L_Snap M_Rescale L_Rescale M_GraphF S_GraphF
  L_Chord L_Chord2 L_Chord3 L_Graph L_Graph2 L_Graph3 L_Graph4 L_Graph5 L_Graph9.
Open Scope Z_scope.

(** Rescaling. *)
Lemma clip_f_floor : forall x, (0 <= x)%Q -> clip_f x = Z.min 127 (Qfloor x).
Proof. exact clip_floor. Qed.
Lemma single_f : forall x, 0 <= x <= 127 -> round_half_even (fl (fl (inject_Z (x * 95) / 127) + 32)) = round_half_even (inject_Z (x * 95) / 127 + 32).
Proof.
  intros x X. assert (C : forallb (fun k => round_half_even (fl (fl (inject_Z (Z.of_nat k * 95) / 127) + 32)) =? round_half_even (inject_Z (Z.of_nat k * 95) / 127 + 32)) (List.seq 0 128) = true) by (vm_compute; reflexivity).
  rewrite forallb_forall in C. specialize (C (Z.to_nat x)). rewrite Z2Nat.id in C by lia. apply Z.eqb_eq, C. apply in_seq. lia.
Qed.
Lemma rescale_f_eq : forall v, (forall x, In x v -> 0 <= x <= 127) -> rescale_f v = rescale v.
Proof.
  intros v B. destruct v as [|a [|b v]]; [reflexivity| |].
  - cbn [rescale_f rescale]. rewrite single_f; [reflexivity|]. apply B. left. auto.
  - set (l := a :: b :: v) in *. assert (NE : l <> []) by discriminate. destruct (lmin_spec l NE) as [M1 M2]. destruct (lmax_spec l NE) as [X1 X2].
    change (rescale_f l) with (let mn := lmin l in let d := lmax l - mn in if d <=? 0 then Ok (map (fun _ => clip 0 127 32) l) else Ok (map (fun x => clip_f (fl (fl (inject_Z ((x - mn) * 95) / inject_Z d) + 32))) l)).
    cbv zeta. destruct (Z.leb_spec (lmax l - lmin l) 0) as [D|D].
    + change (rescale l) with (let mn := lmin l in let d := lmax l - mn in if d <=? 0 then Ok (map (fun _ => clip 0 127 32) l) else Ok (map (fun x => Z.quot (clip 0 (127 * d) ((x - mn) * 95 + 32 * d)) d) l)).
      cbv zeta. destruct (Z.leb_spec (lmax l - lmin l) 0); [reflexivity|lia].
    + rewrite (rescale_exact l (lmin l) (lmax l)); auto; [|lia]. f_equal. apply map_ext_in. intros x I. specialize (M2 x I). specialize (X2 x I).
      pose proof (B _ M1). pose proof (B _ X1). set (lo := lmin l) in *. set (hi := lmax l) in *.
      assert (K : 0 <= (x - lo) * 95 / (hi - lo) <= 95). { split; [apply Z.div_pos; lia|]. apply Z.div_le_upper_bound; nia. }
      assert (NN : (0 <= fl (fl (inject_Z ((x - lo) * 95) / inject_Z (hi - lo)) + 32))%Q).
      { apply fl_nonneg. assert ((0 <= fl (inject_Z ((x - lo) * 95) / inject_Z (hi - lo)))%Q); [|lra]. apply fl_nonneg. apply div_nonneg; [apply inj_nonneg; lia|]. change 0%Q with (inject_Z 0). rewrite <- Zlt_Qlt. lia. }
      rewrite clip_f_floor by exact NN. change 32%Q with (inject_Z 32). rewrite div_add_floor by lia. lia.
Qed.
(** The same with the velocities rescaled exactly. *)
Definition build_sequence_g (e : env) (tolf : seq -> Q) (b : builder) (s : seq) (c : config) (g : option digraph) : res digraph * builder :=
  if (c_size c <=? 0) || (128 <? c_size c) then (Err ValueError, b)
  else if c_buckets c <=? 0 then (Err ValueError, b)
  else if Qltb (c_tolerance c) 0 || Qltb 1 (c_tolerance c) then (Err ValueError, b)
  else match compute_data_f e s (tolf s) (c_filter c) with
  | Err x => (Err x, b)
  | Ok ([], _) => (Ok (match g with Some g => g | None => g_empty end), b)
  | Ok (data, _) =>
    let start :=
      match g with
      | None => Ok (g_empty, None)
      | Some g0 => match rev (g_nodes g0) with
                   | [] => Err IndexError
                   | (h, _) :: _ => Ok (g0, Some h)
                   end
      end in
    match start with
    | Err x => (Err x, b)
    | Ok (g0, last) =>
      match each (visit_group e c) (b, g0, last) (in_key_order data) with
      | (Err x, (b', _, _)) => (Err x, b')
      | (Ok _, (b', g', _)) => (Ok g', b')
      end
    end
  end.
Fixpoint build_tracks_g (e : env) (tolf : seq -> Q) (conv : digraph -> option exn) (c : config) (per_instrument : bool)
         (b : builder) (large : option digraph) (l : list seq) : res (option digraph) * builder :=
  match l with
  | [] => (Ok large, b)
  | s :: r =>
    if i_drum (q_instr s) then build_tracks_g e tolf conv c per_instrument b large r
    else if Nat.eqb (List.length (q_notes s)) 1 then build_tracks_g e tolf conv c per_instrument b large r
    else match build_sequence_g e tolf b s c (if per_instrument then None else large) with
    | (Err x, b1) => (Err x, b1)
    | (Ok g, b1) =>
      match g_nodes g with
      | [] => build_tracks_g e tolf conv c per_instrument b1 large r
      | _ =>
        if per_instrument then
          match conv g with
          | Some x => (Err x, b1)
          | None => build_tracks_g e tolf conv c per_instrument (keep_graph b1 g) large r
          end
        else build_tracks_g e tolf conv c per_instrument b1 (Some g) r
      end
    end
  end.
Definition build_g (e : env) (tolf : seq -> Q) (conv : digraph -> option exn) (b : builder) (l : list seq) (c : config) (per_instrument : bool) : res unit * builder :=
  match build_tracks_g e tolf conv c per_instrument b None l with
  | (Err x, b1) => (Err x, b1)
  | (Ok None, b1) => (Ok tt, b1)
  | (Ok (Some g), b1) => match conv g with Some x => (Err x, b1) | None => (Ok tt, keep_graph b1 g) end
  end.
Lemma each_ext : forall A T (f g : T -> A -> res unit * T) l, (forall t a, In a l -> f t a = g t a) -> forall t, each f t l = each g t l.
Proof.
  intros A T f g l. induction l as [|a l IH]; intros H t; cbn [each]; auto. rewrite (H t a) by (left; auto). destruct (g t a) as [[]]; auto. apply IH. intros; apply H; right; auto.
Qed.
Lemma top_in : forall notes p, (exists n, In n notes /\ n_pitch n = p) -> exists n, In n notes /\ n_velocity n = top_velocity notes p.
Proof.
  intros notes p [n [I P]]. unfold top_velocity. destruct (lmax_spec (map n_velocity (filter (fun n => n_pitch n =? p) notes))) as [A _].
  - intros E. apply map_eq_nil in E. assert (X : In n (filter (fun n => n_pitch n =? p) notes)) by (apply filter_In; split; auto; apply Z.eqb_eq; auto). rewrite E in X. destruct X.
  - apply in_map_iff in A as [m [A1 A2]]. apply filter_In in A2 as [A2 _]. eauto.
Qed.
Lemma visit_group_eq : forall e c notes st, env_ok e -> 0 < c_size c -> notes <> [] -> (forall n, In n notes -> (0 <= n_velocity n <= 127)%Z) -> visit_group_f e c st notes = visit_group e c st notes.
Proof.
  intros e c notes st EO SZ NE V. unfold visit_group_f, visit_group. apply each_ext. intros [[b g] lst] chunk I. unfold visit_f, visit.
  rewrite rescale_f_eq; [reflexivity|]. intros x X. apply in_map_iff in X as [p [<- P]].
  destruct (split_chord_splits e (c_size c) notes EO SZ NE) as [_ [SI _]]. assert (Ip : In p (List.concat (split_chord e (c_size c) notes))) by (apply in_concat; eauto).
  apply SI in Ip. destruct (top_in notes p Ip) as [n [N1 <-]]. auto.
Qed.
Lemma compute_groups_f : forall e s tol f data lg, compute_data_f e s tol f = Ok (data, lg) -> groups_of (fkey e tol) f (q_notes s) (in_key_order data).
Proof.
  intros e s tol f data lg H. unfold compute_data_f in H. destruct (group_notes_f e tol [] 0 (q_notes s)) as [[d g]|x] eqn:P; [|discriminate]. cbn [bind fst snd] in H. apply Ok_inj in H. injection H as H1 H2.
  apply (group_inv_f e _ _ [] [] 0) in P; [|apply inv_empty_data]. cbn [app] in P. eapply groups_from; [exact P|exact H1].
Qed.
Lemma sequence_eq : forall e tolf b s c g, env_ok e -> midi_velocities s -> build_sequence_f e tolf b s c g = build_sequence_g e tolf b s c g.
Proof.
  intros e tolf b s c g EO V. unfold build_sequence_f, build_sequence_g. destruct ((c_size c <=? 0) || (128 <? c_size c)) eqn:E; [reflexivity|].
  apply orb_false_iff in E as [E1 _]. apply Z.leb_gt in E1. destruct (c_buckets c <=? 0); [reflexivity|]. destruct (_ || _); [reflexivity|].
  destruct (compute_data_f e s (tolf s) (c_filter c)) as [[data lg]|x] eqn:D; [|reflexivity]. apply compute_groups_f in D. destruct data as [|d data]; [reflexivity|].
  match goal with |- match ?x with _ => _ end = _ => destruct x as [[g0 lst]|y]; [|reflexivity] end.
  rewrite (each_ext _ _ (visit_group_f e c) (visit_group e c)); [reflexivity|]. intros st notes I. apply visit_group_eq; auto; [eapply groups_nonempty; eauto|].
  intros n N. apply V. destruct (groups_notes _ _ _ _ _ _ D I N) as [A _]. exact A.
Qed.
Lemma tracks_eq : forall e tolf conv c per l b large, env_ok e -> Forall midi_velocities l -> build_tracks_f e tolf conv c per b large l = build_tracks_g e tolf conv c per b large l.
Proof.
  intros e tolf conv c per l. induction l as [|s l IH]; intros b large EO F; cbn [build_tracks_f build_tracks_g]; auto. inversion F; subst.
  destruct (i_drum _); [auto|]. destruct (Nat.eqb _ _); [auto|]. rewrite sequence_eq by auto. destruct (build_sequence_g _ _ _ _ _ _) as [[g|x] b1]; [|reflexivity].
  destruct (g_nodes g); [auto|]. destruct per; [|auto]. destruct (conv g); auto.
Qed.
Lemma build_eq : forall e tolf conv b l c per, env_ok e -> Forall midi_velocities l -> build_f e tolf conv b l c per = build_g e tolf conv b l c per.
Proof. intros. unfold build_f, build_g. rewrite tracks_eq by auto. reflexivity. Qed.

(** Moved starts. *)
Lemma snap_moved : forall tol s, moved tol s (snap tol s).
Proof.
  intros tol s. unfold snap, moved. destruct (Qeq_bool tol 0) eqn:E; [left; split; [apply Qeq_bool_iff; auto|auto]|]. right. split; [apply Qeq_bool_neq; auto|].
  cbv zeta. set (m := round_half_even (fl (s / tol))). exists m, (round_half_even (fl (inject_Z m * tol) * inject_Z 100)). split; [apply round_nearest|]. split; [change 100%Q with (inject_Z 100); apply round_nearest|].
  unfold round_digits. cbv zeta. change (10 ^ Z.of_nat 2) with 100. change (inject_Z 100) with 100%Q. reflexivity.
Qed.
Lemma moved_unique : forall tol s a b, moved tol s a -> moved tol s b -> (a == b)%Q.
Proof.
  intros tol s a b [[T ->]|[T [m [k [A1 [A2 A3]]]]]] [[T' ->]|[T' [m' [k' [B1 [B2 B3]]]]]]; try contradiction; [reflexivity|].
  assert (m = m') by (eapply nearest_unique; [|exact A1|exact B1]; reflexivity). subst m'. assert (k = k') by (eapply nearest_unique; [|exact A2|exact B2]; reflexivity). subst k'. rewrite A3, B3. reflexivity.
Qed.
Lemma fkey_time : forall e tol, time_key_f e tol (fkey e tol).
Proof. intros e tol n. exists (snap tol (n_start n)). split; [apply snap_moved|reflexivity]. Qed.
Lemma key_unique_f : forall e tol k1 k2, env_ok e -> time_key_f e tol k1 -> time_key_f e tol k2 -> forall n, k1 n = k2 n.
Proof. intros e tol k1 k2 EO A B n. destruct (A n) as [a [A1 ->]], (B n) as [b [B1 ->]]. apply (proj1 EO). eapply moved_unique; eauto. Qed.
Lemma chords_split_f : forall e tolf s c gs, env_ok e -> 0 < c_size c -> groups_of (fkey e (tolf s)) (c_filter c) (q_notes s) gs ->
  chords_f e (tolf s) s c (List.concat (map (split_chord e (c_size c)) gs)).
Proof.
  intros e tolf s c gs EO SZ G. exists (fkey e (tolf s)), gs, (map (split_chord e (c_size c)) gs). split; [apply fkey_time|]. split; auto. split; auto.
  destruct G as [ks [_ [F _]]]. clear - F EO SZ. induction F as [|k g ks gs [_ [H _]] F IH]; cbn; constructor; auto. apply split_chord_splits; auto.
Qed.
Lemma build_valid_f : forall e tolf b s c g g' b', build_sequence_g e tolf b s c g = (Ok g', b') -> 0 < c_size c <= 128.
Proof.
  intros e tolf b s c g g' b' H. unfold build_sequence_g in H. destruct ((c_size c <=? 0) || (128 <? c_size c)) eqn:E; [discriminate|].
  apply orb_false_iff in E as [E1 E2]. apply Z.leb_gt in E1. apply Z.ltb_ge in E2. lia.
Qed.
Lemma build_items_f : forall e tolf b s c g g' b', env_ok e -> build_sequence_g e tolf b s c g = (Ok g', b') ->
  exists gs items, let cs := List.concat (map (split_chord e (c_size c)) gs) in
    groups_of (fkey e (tolf s)) (c_filter c) (q_notes s) gs /\ map hash_of items = map (e_shash e) cs /\ Forall (item_ok e c gs) items /\
    b' = reg_all e b cs /\
    (gs = [] -> g' = match g with Some g => g | None => g_empty end) /\
    (gs <> [] -> exists g0 lst, start_of g g0 lst /\ g' = fst (fold_left put_item items (g0, lst))).
Proof.
  intros e tolf b s c g g' b' EO H. unfold build_sequence_g in H. destruct (_ || _); [discriminate|]. destruct (_ <=? 0); [discriminate|]. destruct (_ || _); [discriminate|].
  destruct (compute_data_f e s (tolf s) (c_filter c)) as [[data lg]|x] eqn:D; [|discriminate].
  apply compute_groups_f in D. cbv zeta in D.
  destruct data as [|d data].
  - injection H as H1 H2. exists [], []. cbn [map List.concat]. split; [exact D|]. split; [reflexivity|]. split; [constructor|]. split; [symmetry; exact H2|]. split; [intros _; symmetry; exact H1|congruence].
  - set (dd := d :: data) in *. assert (X : exists g0 lst, start_of g g0 lst /\
      match each (visit_group e c) (b, g0, lst) (in_key_order dd) with
      | (Err x, (b', _, _)) => (Err x, b') | (Ok _, (b', g', _)) => (Ok g', b') end = (Ok g', b')).
    { destruct g as [g1|].
      - unfold start_of. destruct (rev (g_nodes g1)) as [|[h a] r] eqn:RV; [discriminate|]. exists g1, (Some h). split.
        + split; auto. exists (map fst (rev r)), h. split; auto. unfold nodes_of. rewrite <- (rev_involutive (g_nodes g1)), RV. cbn [rev]. rewrite map_app. reflexivity.
        + exact H.
      - exists g_empty, None. split; [split; reflexivity|]. exact H. }
    destruct X as [g0 [lst [ST X]]].
    destruct (each (visit_group e c) (b, g0, lst) (in_key_order dd)) as [[[]|x] [[b1 g1] l1]] eqn:EA; [|discriminate]. injection X as -> ->.
    apply (groups_ok e c (in_key_order dd) _ _ _ _ _ (incl_refl _)) in EA as [items [A [B C]]]. injection C as C1 C2 C3.
    exists (in_key_order dd), items. split; [exact D|]. split; [exact A|]. split; [exact B|]. split; [exact C1|]. split.
    + intros E. exfalso. assert (L : List.length (in_key_order dd) = 0%nat) by (rewrite E; reflexivity).
      unfold in_key_order in L. rewrite map_length in L. rewrite <- (Permutation_length (py_sort_perm (fun a b : Z * list note => fst a <? fst b) dd)) in L. discriminate.
    + intros _. exists g0, lst. split; auto.
Qed.
Lemma build_fresh_f : forall e tolf b s c g' b', env_ok e -> build_sequence_g e tolf b s c None = (Ok g', b') ->
  exists ws, chords_f e (tolf s) s c ws /\ graph_of (map (e_shash e) ws) g' /\ graph_ok g' /\ b' = reg_all e b ws.
Proof.
  intros e tolf b s c g' b' EO H. pose proof (build_valid_f _ _ _ _ _ _ _ _ H) as V.
  destruct (build_items_f e tolf b s c None g' b' EO H) as [gs [items [G [A [B [R [Z1 Z2]]]]]]].
  exists (List.concat (map (split_chord e (c_size c)) gs)). split; [apply chords_split_f; auto; lia|].
  destruct gs as [|g gs].
  - rewrite Z1 by auto. cbn. destruct graph_empty. auto.
  - destruct Z2 as [g0 [lst [[-> ->] E]]]; [discriminate|]. rewrite <- A. destruct items as [|i items].
    + cbn in E. subst g'. destruct graph_empty. auto.
    + rewrite E. destruct (fresh_graph i items). auto.
Qed.
Lemma build_onto_f : forall e tolf b s c g ns p g' b', env_ok e -> graph_ok g -> nodes_of g = ns ++ [p] -> build_sequence_g e tolf b s c (Some g) = (Ok g', b') ->
  exists ws, chords_f e (tolf s) s c ws /\ extends g (p :: map (e_shash e) ws) g' /\ graph_ok g' /\ b' = reg_all e b ws.
Proof.
  intros e tolf b s c g ns p g' b' EO GO N H. pose proof (build_valid_f _ _ _ _ _ _ _ _ H) as V.
  assert (P : In p (nodes_of g)) by (rewrite N; apply in_or_app; right; left; auto).
  destruct (build_items_f e tolf b s c (Some g) g' b' EO H) as [gs [items [G [A [B [R [Z1 Z2]]]]]]].
  exists (List.concat (map (split_chord e (c_size c)) gs)). split; [apply chords_split_f; auto; lia|].
  destruct gs as [|g1 gs].
  - rewrite Z1 by auto. cbn [map List.concat]. split; [apply extends_refl; auto|auto].
  - destruct Z2 as [g0 [lst [[-> [ns' [p' [N' ->]]]] E]]]; [discriminate|]. rewrite N in N'. apply app_inj_tail in N' as [_ <-].
    destruct (put_items items g [] p g GO P (extends_refl g p GO P)) as [E1 [E2 _]]. cbn [app] in E1. rewrite <- A, E. auto.
Qed.
Lemma chords_nonempty_f : forall e tolf s c gs, groups_of (fkey e (tolf s)) (c_filter c) (q_notes s) gs -> env_ok e -> 0 < c_size c ->
  gs <> [] -> List.concat (map (split_chord e (c_size c)) gs) <> [].
Proof.
  intros e tolf s c gs [ks [_ [F _]]] EO SZ NE. destruct F as [|k g ks gs [F1 [F2 F3]] F]; [congruence|]. cbn. intros E. apply app_eq_nil in E as [E _].
  destruct g as [|n g]; [congruence|]. destruct (split_chord_splits e (c_size c) (n :: g) EO SZ F2) as [_ [I _]].
  rewrite E in I. cbn in I. apply (proj2 (I (n_pitch n))). exists n. auto.
Qed.
Lemma chords_empty_f : forall e tol s c ws ws', env_ok e -> chords_f e tol s c ws -> chords_f e tol s c ws' -> ws = [] -> ws' = [].
Proof.
  intros e tol s c ws ws' EO [key [gs [css [T [G [F ->]]]]]] [key' [gs' [css' [T' [G' [F' ->]]]]]] E.
  assert (gs = gs') by (eapply groups_unique; [apply (key_unique_f e _ key key' EO T T')|exact G|exact G']). subst gs'.
  destruct gs as [|g gs]; [inversion F'; reflexivity|]. exfalso. inversion F as [|g0 cs gs0 css0 SP F0]; subst.
  assert (NE : g <> []). { destruct G as [ks [_ [FF _]]]. inversion FF as [|? ? ? ? [_ [H _]] _]; subst. exact H. }
  apply (splits_nonempty _ _ _ NE SP). cbn in E. apply app_eq_nil in E as [-> _]. reflexivity.
Qed.
Lemma sequence_grows_f : forall e tolf b s c g, grows b (snd (build_sequence_g e tolf b s c g)) /\
  b_pyg (snd (build_sequence_g e tolf b s c g)) = b_pyg b /\ b_sub (snd (build_sequence_g e tolf b s c g)) = b_sub b.
Proof.
  intros e tolf b s c g. assert (T : grows b b /\ b_pyg b = b_pyg b /\ b_sub b = b_sub b) by (split; [apply grows_refl|auto]). unfold build_sequence_g.
  destruct (_ || _); [exact T|]. destruct (_ <=? 0); [exact T|]. destruct (_ || _); [exact T|].
  destruct (compute_data_f _ _ _ _) as [[[|d data] lg]|x]; [exact T| |exact T].
  destruct (match g with None => _ | Some _ => _ end) as [[g0 lst]|x]; [|exact T].
  assert (R : bgrows (b, g0, lst) (snd (each (visit_group e c) (b, g0, lst) (in_key_order (d :: data))))).
  { assert (R1 : forall t, bgrows t t) by (intros; split; [apply grows_refl|auto]).
    assert (R2 : forall x y z, bgrows x y -> bgrows y z -> bgrows x z).
    { intros x y z [A1 [A2 A3]] [B1 [B2 B3]]. split; [eapply grows_trans; eauto|]. split; congruence. }
    apply each_rel; auto. intros t a. unfold visit_group. apply each_rel; auto. intros t' a'. apply visit_grows. }
  destruct (each (visit_group e c) (b, g0, lst) (in_key_order (d :: data))) as [[u|x] [[b1 g1] l1]]; exact R.
Qed.
Lemma tracks_per_f : forall e tolf conv c l b large lg b', env_ok e -> build_tracks_g e tolf conv c true b large l = (Ok lg, b') ->
  lg = large /\ exists ts gs, selects (track_ok_f e tolf c) l ts /\ Forall2 (graph_of_track_f e tolf c) ts gs /\ Forall graph_ok gs /\
    b_pyg b' = b_pyg b ++ map (fun g => mkP g None None) gs /\ b_sub b' = b_sub b ++ gs.
Proof.
  intros e tolf conv c l. induction l as [|s l IH]; intros b large lg b' EO H; cbn [build_tracks_g] in H.
  - injection H as H1 H2. subst. split; auto. exists [], []. rewrite !app_nil_r. repeat split; auto; constructor.
  - assert (SKIP : ~ track_ok_f e tolf c s -> forall b1, b_pyg b1 = b_pyg b -> b_sub b1 = b_sub b -> build_tracks_g e tolf conv c true b1 large l = (Ok lg, b') ->
      lg = large /\ exists ts gs, selects (track_ok_f e tolf c) (s :: l) ts /\ Forall2 (graph_of_track_f e tolf c) ts gs /\ Forall graph_ok gs /\
      b_pyg b' = b_pyg b ++ map (fun g => mkP g None None) gs /\ b_sub b' = b_sub b ++ gs).
    { intros N b1 P1 P2 HB. destruct (IH _ _ _ _ EO HB) as [A [ts [gs [B [C [D [E F]]]]]]]. split; auto. exists ts, gs. rewrite P1 in E. rewrite P2 in F. repeat split; auto. constructor; auto. }
    destruct (i_drum (q_instr s)) eqn:DR; [apply (SKIP ltac:(intros [X _]; congruence) b); auto|].
    destruct (Nat.eqb_spec (List.length (q_notes s)) 1) as [L1|L1]; [apply (SKIP ltac:(intros [_ [X _]]; congruence) b); auto|].
    pose proof (sequence_grows_f e tolf b s c None) as [_ [SP SS]].
    destruct (build_sequence_g e tolf b s c None) as [[g|x] b1] eqn:BS; [|discriminate]. cbn [snd] in SP, SS.
    destruct (build_fresh_f e tolf b s c g b1 EO BS) as [ws [W1 [W2 [W3 W4]]]].
    destruct (g_nodes g) eqn:GN.
    + apply (SKIP) with (b1 := b1); auto. intros [_ [_ [ws' [NE W']]]]. apply NE. apply (chords_empty_f e (tolf s) s c _ ws' EO W1 W').
      destruct W2 as [W2 _]. apply nodes_nil in GN. rewrite W2 in GN. apply first_seen_nil in GN. apply map_eq_nil in GN. auto.
    + assert (NE : ws <> []). { intros ->. destruct W2 as [W2 _]. unfold nodes_of in W2. rewrite GN in W2. discriminate. }
      destruct (conv g); [discriminate|]. destruct (IH _ _ _ _ EO H) as [A [ts [gs [B [C [D [E F]]]]]]]. split; auto. exists (s :: ts), (g :: gs).
      unfold keep_graph in E, F. cbn [b_pyg b_sub] in E, F. rewrite SP in E. rewrite SS in F. rewrite <- app_assoc in E, F. repeat split; auto.
      * constructor; auto. repeat split; eauto.
      * constructor; auto. exists ws. auto.
Qed.
Definition so_far_f (e : env) (tolf : seq -> Q) (c : config) (ts : list seq) (large : option digraph) : Prop :=
  match large with None => ts = [] | Some g => graph_of_tracks_f e tolf c ts g /\ graph_ok g /\ g_nodes g <> [] end.
Lemma tracks_one_f : forall e tolf conv c l b large lg b' ts0, env_ok e -> build_tracks_g e tolf conv c false b large l = (Ok lg, b') -> so_far_f e tolf c ts0 large ->
  b_pyg b' = b_pyg b /\ b_sub b' = b_sub b /\ exists ts, selects (track_ok_f e tolf c) l ts /\ so_far_f e tolf c (ts0 ++ ts) lg.
Proof.
  intros e tolf conv c l. induction l as [|s l IH]; intros b large lg b' ts0 EO H SF; cbn [build_tracks_g] in H.
  - injection H as H1 H2. subst. repeat split; auto. exists []. rewrite app_nil_r. split; [constructor|auto].
  - assert (SKIP : ~ track_ok_f e tolf c s -> forall b1 large1, b_pyg b1 = b_pyg b -> b_sub b1 = b_sub b -> so_far_f e tolf c ts0 large1 -> build_tracks_g e tolf conv c false b1 large1 l = (Ok lg, b') ->
      b_pyg b' = b_pyg b /\ b_sub b' = b_sub b /\ exists ts, selects (track_ok_f e tolf c) (s :: l) ts /\ so_far_f e tolf c (ts0 ++ ts) lg).
    { intros N b1 large1 P1 P2 SF1 HB. destruct (IH _ _ _ _ _ EO HB SF1) as [A [B [ts [C D]]]]. rewrite P1 in A. rewrite P2 in B. repeat split; auto. exists ts. split; auto. constructor; auto. }
    destruct (i_drum (q_instr s)) eqn:DR; [apply (SKIP ltac:(intros [X _]; congruence) b large); auto|].
    destruct (Nat.eqb_spec (List.length (q_notes s)) 1) as [L1|L1]; [apply (SKIP ltac:(intros [_ [X _]]; congruence) b large); auto|].
    pose proof (sequence_grows_f e tolf b s c large) as [_ [SP SS]].
    destruct (build_sequence_g e tolf b s c large) as [[g|x] b1] eqn:BS; [|discriminate]. cbn [snd] in SP, SS.
    destruct large as [g0|].
    + destruct SF as [SF1 [SF2 SF3]]. destruct (nodes_last g0 SF3) as [ns [p NP]]. destruct (build_onto_f e tolf b s c g0 ns p g b1 EO SF2 NP BS) as [ws [W1 [W2 [W3 W4]]]].
      assert (GN : g_nodes g <> []). { intros GN. apply nodes_nil in GN. destruct W2 as [W2 _]. rewrite GN in W2. symmetry in W2. apply first_seen_nil in W2. rewrite NP in W2. destruct ns; discriminate. }
      destruct (g_nodes g) eqn:GE; [congruence|]. destruct ws as [|w ws].
      * assert (G0 : g = g0).
        { clear - BS EO W1. destruct (build_items_f e tolf b s c (Some g0) g b1 EO BS) as [gs [items [G [_ [_ [_ [Z1 _]]]]]]]. apply Z1. destruct gs as [|x gs]; auto. exfalso.
          pose proof (build_valid_f _ _ _ _ _ _ _ _ BS) as V. apply (chords_nonempty_f e tolf s c (x :: gs) G EO ltac:(lia) ltac:(discriminate)).
          eapply chords_empty_f; [exact EO|exact W1|apply chords_split_f; auto; lia|reflexivity]. }
        subst g. apply (SKIP) with (b1 := b1) (large1 := Some g0); auto; [|split; auto].
        intros [_ [_ [ws' [NE W']]]]. apply NE. apply (chords_empty_f e (tolf s) s c _ ws' EO W1 W'). reflexivity.
      * destruct (IH _ _ _ _ (ts0 ++ [s]) EO H) as [A [B [ts [C D]]]].
        { split; [|split; [auto|congruence]]. eapply gf_more; eauto. discriminate. }
        rewrite SP in A. rewrite SS in B. repeat split; auto. exists (s :: ts). rewrite <- app_assoc in D. split; auto. constructor; auto. repeat split; auto. exists (w :: ws). split; [discriminate|auto].
    + cbn in SF. subst ts0. destruct (build_fresh_f e tolf b s c g b1 EO BS) as [ws [W1 [W2 [W3 W4]]]].
      destruct (g_nodes g) eqn:GN.
      * apply (SKIP) with (b1 := b1) (large1 := None); auto; [|reflexivity]. intros [_ [_ [ws' [NE W']]]]. apply NE. apply (chords_empty_f e (tolf s) s c _ ws' EO W1 W').
        destruct W2 as [W2 _]. apply nodes_nil in GN. rewrite W2 in GN. apply first_seen_nil in GN. apply map_eq_nil in GN. auto.
      * assert (NE : ws <> []). { intros ->. destruct W2 as [W2 _]. unfold nodes_of in W2. rewrite GN in W2. discriminate. }
        destruct (IH _ _ _ _ [s] EO H) as [A [B [ts [C D]]]].
        { split; [|split; [auto|congruence]]. apply gf_one. exists ws. auto. }
        rewrite SP in A. rewrite SS in B. repeat split; auto. exists (s :: ts). split; auto. constructor; auto. repeat split; auto. exists ws. auto.
Qed.
Lemma build_per_instrument_f : forall e tolf conv b l c b', env_ok e -> build_g e tolf conv b l c true = (Ok tt, b') ->
  exists ts gs, selects (track_ok_f e tolf c) l ts /\ Forall2 (graph_of_track_f e tolf c) ts gs /\ Forall graph_ok gs /\
    b_pyg b' = b_pyg b ++ map (fun g => mkP g None None) gs /\ b_sub b' = b_sub b ++ gs.
Proof.
  intros e tolf conv b l c b' EO H. unfold build_g in H. destruct (build_tracks_g e tolf conv c true b None l) as [[lg|x] b1] eqn:B; [|discriminate].
  destruct (tracks_per_f e tolf conv c l b None lg b1 EO B) as [-> R]. injection H as <-. exact R.
Qed.
Lemma build_whole_f : forall e tolf conv b l c b', env_ok e -> build_g e tolf conv b l c false = (Ok tt, b') ->
  exists ts, selects (track_ok_f e tolf c) l ts /\
    ((ts = [] /\ b_pyg b' = b_pyg b /\ b_sub b' = b_sub b) \/
     (exists g, graph_of_tracks_f e tolf c ts g /\ graph_ok g /\ b_pyg b' = b_pyg b ++ [mkP g None None] /\ b_sub b' = b_sub b ++ [g])).
Proof.
  intros e tolf conv b l c b' EO H. unfold build_g in H. destruct (build_tracks_g e tolf conv c false b None l) as [[lg|x] b1] eqn:B; [|discriminate].
  destruct (tracks_one_f e tolf conv c l b None lg b1 [] EO B eq_refl) as [P1 [P2 [ts [T1 T2]]]]. exists ts. split; auto. cbn [app] in T2. destruct lg as [g|].
  - destruct (conv g); [discriminate|]. injection H as <-. right. exists g. destruct T2 as [T2 [T3 T4]]. split; [exact T2|]. split; [exact T3|]. unfold keep_graph. cbn. rewrite P1, P2. auto.
  - injection H as <-. left. auto.
Qed.
Lemma build_total_f : forall e tolf b s c g, (forall s, 0 <= tolf s)%Q -> env_ok e -> valid_config c -> (forall n, In n (q_notes s) -> sounding n -> (0 <= n_start n)%Q /\ good_pitch c (n_pitch n)) ->
  (match g with Some g => g_nodes g <> [] | None => True end) -> exists g' b', build_sequence_g e tolf b s c g = (Ok g', b').
Proof.
  intros e tolf b s c g TP EO V N G. pose proof (valid_checks c V) as [C1 [C2 C3]]. unfold build_sequence_g. rewrite C1, C2, C3.
  destruct (compute_data_f e s (tolf s) (c_filter c)) as [[data lg]|x] eqn:E.
  - pose proof (compute_groups_f e s _ _ _ _ E) as GR. cbv zeta in GR. destruct data as [|d data]; [eauto|].
    assert (T : forall st, exists st', each (visit_group e c) st (in_key_order (d :: data)) = (Ok tt, st')).
    { apply each_total. intros st notes Hn. unfold visit_group. apply each_total. intros st1 chunk Hc.
      assert (NN : notes <> []).
      { destruct GR as [ks [_ [F _]]]. clear - F Hn. induction F as [|k x ks gs [_ [H _]] F IH]; [destruct Hn|]. destruct Hn as [<-|Hn]; auto. }
      destruct V as [V1 _]. destruct (split_chord_splits e (c_size c) notes EO ltac:(lia) NN) as [_ [PI [FS _]]]. rewrite Forall_forall in FS. destruct (FS chunk Hc) as [F1 F2].
      apply visit_total; auto; [|lia]. intros p Hp. assert (Ic : In p (List.concat (split_chord e (c_size c) notes))) by (apply in_concat; eauto).
      apply PI in Ic as [n [I1 <-]]. destruct (groups_notes _ _ _ _ _ _ GR Hn I1) as [A B]. apply N; auto. }
    destruct g as [g|].
    + destruct (rev (g_nodes g)) as [|[h a] r] eqn:R; [exfalso; apply G; rewrite <- (rev_involutive (g_nodes g)), R; reflexivity|].
      destruct (T (b, g, Some h)) as [[[b1 g1] l1] ->]. eauto.
    + destruct (T (b, g_empty, None)) as [[[b1 g1] l1] ->]. eauto.
  - exfalso. unfold compute_data_f in E. destruct (proj1 (group_total_f e (tolf s) (q_notes s) [] 0 (TP s)) ltac:(intros; apply N; auto)) as [p P]. rewrite P in E. discriminate.
Qed.
Lemma build_tracks_total_f : forall e tolf conv c per l b large, (forall s, 0 <= tolf s)%Q -> env_ok e -> valid_config c -> (forall g, conv g = None) -> Forall (good_track c) l ->
  (match large with Some g => graph_ok g /\ g_nodes g <> [] | None => True end) -> exists lg b', build_tracks_g e tolf conv c per b large l = (Ok lg, b').
Proof.
  intros e tolf conv c per l. induction l as [|s l IH]; intros b large TP EO V CV F L; cbn [build_tracks_g]; [eauto|]. inversion F as [|s0 l0 F1 F2]; subst.
  destruct (i_drum (q_instr s)); [apply IH; auto|]. destruct (Nat.eqb _ _); [apply IH; auto|].
  destruct (build_total_f e tolf b s c (if per then None else large) TP EO V F1) as [g [b1 B]]; [destruct per; auto; destruct large; auto; apply L|]. rewrite B.
  destruct (g_nodes g) eqn:GN; [apply IH; auto|]. destruct per; [rewrite CV; apply IH; auto|]. apply IH; auto. split; [|congruence].
  destruct large as [g0|].
  - destruct L as [L1 L2]. destruct (nodes_last g0 L2) as [ns [q NP]]. destruct (build_onto_f e tolf b s c g0 ns q g b1 EO L1 NP B) as [ws [_ [_ [W _]]]]. exact W.
  - destruct (build_fresh_f e tolf b s c g b1 EO B) as [ws [_ [_ [W _]]]]. exact W.
Qed.
Lemma build_all_total_f : forall e tolf conv b l c per, (forall s, 0 <= tolf s)%Q -> env_ok e -> valid_config c -> (forall g, conv g = None) -> Forall (good_track c) l ->
  exists b', build_g e tolf conv b l c per = (Ok tt, b').
Proof.
  intros e tolf conv b l c per TP EO V CV F. unfold build_g. destruct (build_tracks_total_f e tolf conv c per l b None TP EO V CV F I) as [lg [b' ->]]. destruct lg as [g|]; [rewrite CV|]; eauto.
Qed.
Lemma build_attrs_f : forall e tolf b s c g g' b', env_ok e -> build_sequence_g e tolf b s c g = (Ok g', b') ->
  exists key gs, time_key_f e (tolf s) key /\ groups_of key (c_filter c) (q_notes s) gs /\
    Forall (fun n => node_from e c gs n \/ match g with Some g0 => In n (g_nodes g0) | None => False end) (g_nodes g').
Proof.
  intros e tolf b s c g g' b' EO H. pose proof (build_valid_f _ _ _ _ _ _ _ _ H) as V. destruct (build_items_f e tolf b s c g g' b' EO H) as [gs [items [G [A [B [R [Z1 Z2]]]]]]].
  exists (fkey e (tolf s)), gs. split; [apply fkey_time|]. split; [exact G|].
  assert (BASE : Forall (fun n => (match g with Some g0 => In n (g_nodes g0) | None => False end) \/ attr_ok (item_ok e c gs) n) (g_nodes g')).
  { destruct gs as [|x gs].
    - rewrite Z1 by auto. destruct g as [g0|]; [|constructor]. apply Forall_forall. auto.
    - destruct Z2 as [g0 [lst [ST ->]]]; [discriminate|]. apply put_attrs_onto; auto. destruct g as [g1|].
      + destruct ST as [-> _]. apply Forall_forall. auto.
      + destruct ST as [-> _]. constructor. }
  eapply Forall_impl; [|exact BASE]. intros [h a] [X|X]; [right; exact X|left].
  destruct X as [[[h' x] names] [[notes [chunk [I1 [I2 [I3 [I4 I5]]]]]] [E1 E2]]]. unfold hash_of in *. cbn [fst snd] in *.
  pose proof (split_chord_splits e (c_size c) notes EO ltac:(lia) (groups_nonempty _ _ _ _ _ G I1)) as SP. pose proof SP as [_ [SI [SF _]]]. rewrite Forall_forall in SF. destruct (SF chunk I2) as [F1 F2].
  assert (PN : forall p, In p (frozenset e (map n_pitch notes)) <-> exists m, In m notes /\ n_pitch m = p).
  { intros p. destruct EO as [_ [EO _]]. unfold frozenset. split.
    - intros Hp. apply (Permutation_in _ (EO _ (distinct_NoDup (map n_pitch notes)))) in Hp. apply (proj1 (distinct_In _ _)) in Hp. apply in_map_iff in Hp as [m [M1 M2]]. eauto.
    - intros [m [M1 M2]]. apply (Permutation_in _ (Permutation_sym (EO _ (distinct_NoDup (map n_pitch notes))))). apply distinct_In. apply in_map_iff. eauto. }
  assert (FX : feature c notes chunk x) by (apply (create_feature e); auto; [lia|]; intros p Hp; apply SI; apply in_concat; eauto).
  exists notes, (split_chord e (c_size c) notes), chunk, x, (match a with NChord _ l _ => l | NMerged _ => LHash h end). cbn [fst snd].
  split; [exact I1|]. split; [exact SP|]. split; [exact I2|]. split; [congruence|]. split; [exact FX|]. destruct E2 as [->| ->]; (split; [reflexivity|]); [left; auto|right].
  exists (frozenset e (map n_pitch notes)). split; [congruence|]. split; [|exact PN]. destruct EO as [_ [EO _]]. eapply Permutation_NoDup; [symmetry; apply EO; apply distinct_NoDup|apply distinct_NoDup].
Qed.
