(** Lemmas for P_Experiments.v: metrics. *)
From Coq Require Import Sorted Permutation Ascii Lia.
From Verif Require Import PyBase L_Base M_Chord L_Chord M_Experiments S_Experiments L_Experiments.
Open Scope Z_scope.

Lemma load_metrics_kept : forall t m cd ls, t_mdir t <> EmptyString -> plain m -> t_metric (snd (load_checkpoint t m cd ls)) = t_metric t.
Proof.
  intros t m cd ls N P. unfold load_checkpoint. destruct cd as [|ch cd]; [reflexivity|]. set (D := String ch cd). cbv zeta.
  destruct (get_dir (mkdir (t_files t) D) (join D m)) as [l|]; [|reflexivity]. destruct (ls _); [reflexivity|]. destruct (forallb _ _); [|reflexivity].
  destruct (dict_get _ _ l) as [[e mo o| |]|]; try reflexivity. cbn [with_files t_opt]. destruct (t_opt t); [|reflexivity].
  rewrite !restore_skip; try (cbn [with_files t_mdir]; exact N); try (cbn; repeat split; discriminate); auto.
Qed.
Lemma metric_append : forall m n v x, append_opt m n v x = if mname_eqb x n then m x ++ match v with Some q => [q] | None => [] end else m x.
Proof. intros m n [q|] x; cbn; [reflexivity|]. destruct (mname_eqb x n); [rewrite app_nil_r|]; reflexivity. Qed.
Lemma read_contents : forall f d n, read_file f d n = dict_get String.eqb n (contents f d).
Proof. intros. unfold read_file, contents. destruct (get_dir f d); reflexivity. Qed.
Lemma update_metrics_lists : forall t l f a r p, let m := t_metric (snd (update_metrics t l f a r p)) in
  m train_losses = t_metric t train_losses ++ given l /\ m train_f1s = t_metric t train_f1s ++ given f /\ m train_accs = t_metric t train_accs ++ given a /\
  m train_recalls = t_metric t train_recalls ++ given r /\ m train_precisions = t_metric t train_precisions ++ given p /\
  (forall n, ~ In n [train_losses; train_f1s; train_accs; train_recalls; train_precisions] -> m n = t_metric t n).
Proof.
  intros t l f a r p m. unfold m, update_metrics. cbv zeta. destruct (write_same (with_metric t (append_opt (append_opt (append_opt (append_opt (append_opt (t_metric t) train_losses l) train_f1s f) train_accs a) train_recalls r) train_precisions p)) true "_train_metrics.pt"
    (train_dump (with_metric t (append_opt (append_opt (append_opt (append_opt (append_opt (t_metric t) train_losses l) train_f1s f) train_accs a) train_recalls r) train_precisions p)))) as [_ [_ [_ [_ [E _]]]]].
  rewrite E. cbn [with_metric t_metric]. rewrite !metric_append. cbn [mname_eqb]. repeat (split; [reflexivity|]). intros n N. rewrite !metric_append. destruct n; cbn in *; auto; exfalso; apply N; auto 6.
Qed.
Lemma put_get : forall f d n c f', put_file f d n c = (Ok tt, f') -> dict_get String.eqb n (contents f' d) = Some c /\ get_dir f' d <> None.
Proof.
  intros f d n c f' H. split.
  - rewrite (put_contents _ _ _ _ _ _ H), String.eqb_refl, (dict_get_set String.eqb sd), String.eqb_refl. reflexivity.
  - unfold put_file in H. destruct (get_dir f d) eqn:E; [injection H as <-|destruct d; [injection H as <-|discriminate]]; unfold get_dir; rewrite (dict_get_set String.eqb sd), String.eqb_refl; discriminate.
Qed.
Lemma write_due : forall t s l, due t = true -> exists t', write_metrics t true s l = (Ok tt, t') /\ dict_get String.eqb (t_type t ++ s)%string (contents (t_files t') (t_mdir t)) = Some (CMetrics l) /\ get_dir (t_files t') (t_mdir t) <> None /\
  t' = with_files t (t_files t').
Proof.
  intros t s l D. unfold write_metrics. rewrite D. cbv zeta. set (f := match t_mdir t with EmptyString => t_files t | d => mkdir (t_files t) d end).
  assert (R : exists f', put_file f (t_mdir t) (t_type t ++ s)%string (CMetrics l) = (Ok tt, f')).
  { unfold put_file, f. destruct (t_mdir t) as [|c d]; [destruct (get_dir (t_files t) ""); eauto|]. rewrite mkdir_get, String.eqb_refl. eauto. }
  destruct R as [f' R]. rewrite R. eexists. split; [reflexivity|]. cbn. destruct (put_get _ _ _ _ _ R) as [A B]. split; [exact A|]. split; [exact B|]. reflexivity.
Qed.
Lemma update_writes : forall t l f a r p, due t = true -> exists t', update_metrics t l f a r p = (Ok tt, t') /\
  dict_get String.eqb (t_type t ++ "_train_metrics.pt")%string (contents (t_files t') (t_mdir t)) =
    Some (CMetrics [("test_accs", t_metric t val_accs); ("tet_f1s", t_metric t val_f1s); ("test_precisions", t_metric t val_precisions); ("test_recalls", t_metric t val_recalls)]%string).
Proof.
  intros t l f a r p D. unfold update_metrics. cbv zeta. set (t1 := with_metric t _). destruct (write_due t1 "_train_metrics.pt" (train_dump t1) D) as [t' [A [B _]]]. exists t'. split; [exact A|].
  unfold t1 in B. cbn [with_metric t_type t_mdir t_metric] in B. rewrite B. unfold train_dump. cbn [with_metric t_metric]. rewrite !metric_append. reflexivity.
Qed.
Lemma test_writes : forall t a f p r ap au, due t = true -> exists t', update_test_metric t a f p r ap au = (Ok tt, t') /\
  dict_get String.eqb (t_type t ++ "_test_metrics.pt")%string (contents (t_files t') (t_mdir t)) =
    Some (CMetrics [("test_accs", t_metric t val_accs); ("tet_f1s", t_metric t val_f1s); ("test_precisions", t_metric t val_precisions); ("test_recalls", t_metric t val_recalls);
                    ("test_aucs", (t_metric t test_aucs ++ given au)%list); ("test_aps", (t_metric t test_aps ++ given ap)%list)]%string).
Proof.
  intros t a f p r ap au D. unfold update_test_metric. cbv zeta. set (t1 := with_metric t _). destruct (write_due t1 "_test_metrics.pt" (test_dump t1) D) as [t' [A [B _]]]. exists t'. split; [exact A|].
  unfold t1 in B. cbn [with_metric t_type t_mdir t_metric] in B. rewrite B. unfold test_dump, train_dump. cbn [with_metric t_metric app]. rewrite !metric_append. cbn [mname_eqb]. reflexivity.
Qed.
Lemma val_no_dir : forall t a f p r, due t = true -> t_mdir t <> EmptyString -> get_dir (t_files t) (t_mdir t) = None ->
  exists t', update_val_metric t a f p r = (Err RuntimeError, t') /\ t_files t' = t_files t /\ t_metric t' val_accs = t_metric t val_accs ++ [a].
Proof.
  intros t a f p r D N G. unfold update_val_metric. cbv zeta. set (t1 := with_metric t _). unfold write_metrics. change (due t1) with (due t). rewrite D. cbv zeta. unfold put_file. change (t_mdir t1) with (t_mdir t). change (t_files t1) with (t_files t). rewrite G.
  destruct (t_mdir t) eqn:E; [congruence|]. eexists. split; [reflexivity|]. cbn. split; [reflexivity|]. reflexivity.
Qed.
Lemma val_writes : forall t a f p r, due t = true -> get_dir (t_files t) (t_mdir t) <> None ->
  exists t', update_val_metric t a f p r = (Ok tt, t') /\
  dict_get String.eqb (t_type t ++ "_validation_metrics.pt")%string (contents (t_files t') (t_mdir t)) =
    Some (CMetrics [("val_accs", (t_metric t val_accs ++ [a])%list); ("val_f1s", (t_metric t val_f1s ++ [f])%list); ("val_precisions", (t_metric t val_precisions ++ [p])%list); ("val_recalls", (t_metric t val_recalls ++ [r])%list)]%string).
Proof.
  intros t a f p r D G. unfold update_val_metric. cbv zeta. set (t1 := with_metric t _). unfold write_metrics. change (due t1) with (due t). rewrite D. cbv zeta.
  assert (R : exists f', put_file (t_files t1) (t_mdir t1) (t_type t1 ++ "_validation_metrics.pt")%string (CMetrics (val_dump t1)) = (Ok tt, f')).
  { unfold put_file. change (t_mdir t1) with (t_mdir t). change (t_files t1) with (t_files t). destruct (get_dir (t_files t) (t_mdir t)); [eauto|congruence]. }
  destruct R as [f' R]. rewrite R. eexists. split; [reflexivity|]. cbn [with_files t_files]. destruct (put_get _ _ _ _ _ R) as [A _]. exact A.
Qed.
Lemma prefix_app : forall a b, String.prefix a (a ++ b)%string = true.
Proof. induction a as [|c a IH]; intros b; cbn; [destruct b; reflexivity|]. destruct (Ascii.ascii_dec c c); [apply IH|congruence]. Qed.
Lemma ends_app : forall a b, ends_pt b = true -> ends_pt (a ++ b)%string = true.
Proof. induction a as [|c a IH]; intros b H; [exact H|]. cbn [append ends_pt]. destruct (String.eqb _ _); [reflexivity|apply IH; exact H]. Qed.
Lemma join_nil : forall n, plain n -> join EmptyString n = n.
Proof. intros n P. unfold join. destruct n as [|c n]; [reflexivity|]. destruct c as [[|] [|] [|] [|] [|] [|] [|] [|]]; reflexivity. Qed.
(** With the current directory as metrics directory, metrics just written make loading fail. *)
Lemma load_key_error : forall t0 ops1 ops2 epoch op out name m cd ls l f a r p, t_files t0 = [] -> join out name = join cd m -> cd <> EmptyString -> plain m -> t_mdir t0 = EmptyString -> join cd m <> EmptyString ->
  (forall l, Permutation (ls l) l) ->
  (forall o e, In o ops1 -> saves_into (join cd m) o e -> e <= epoch) -> (forall o e, In o ops2 -> saves_into (join cd m) o e -> e < epoch) ->
  let t1 := t_run t0 (ops1 ++ OSave epoch op out name true :: ops2) in due t1 = true -> t_type t1 = m -> t_opt t1 <> None ->
  let t := t_do t1 (OMetrics l f a r p) in
  fst (load_checkpoint t m cd ls) = Err KeyError.
Proof.
  intros t0 ops1 ops2 epoch op out name m cd ls l f a r p F J CD PM MD ND LS H1 H2 t1 DU TY OP t. set (d := join cd m) in *.
  assert (T : t = t_run (t_do (t_run t0 ops1) (OSave epoch op out name true)) (ops2 ++ [OMetrics l f a r p])) by (unfold t, t1, t_run; rewrite !fold_left_app; reflexivity).
  assert (DM : t_mdir t0 <> d) by (rewrite MD; auto).
  assert (P1 : points epoch (contents (t_files (t_run t0 ops1)) d)). { apply run_points; auto. rewrite F. split; [constructor|intros n []]. }
  set (ts := t_do (t_run t0 ops1) (OSave epoch op out name true)) in *. assert (MS : t_mdir ts = t_mdir t0) by (unfold ts; rewrite do_mdir; apply run_mdir).
  assert (C2 : contents (t_files ts) d = dict_set String.eqb (point_name epoch) (CPoint epoch (t_model (t_run t0 ops1)) op) (contents (t_files (t_run t0 ops1)) d)).
  { unfold ts. rewrite do_contents by (rewrite run_mdir; auto). rewrite J, String.eqb_refl. reflexivity. }
  assert (P2 : points epoch (contents (t_files ts) d)) by (rewrite C2; apply points_set; [exact P1|lia]).
  assert (H3 : forall o e, In o (ops2 ++ [OMetrics l f a r p]) -> saves_into d o e -> e < epoch). { intros o e I X. apply in_app_or in I as [I|[<-|[]]]; [eauto|]. destruct X as [? [? [? [? [X _]]]]]. discriminate. }
  assert (P3 : points epoch (contents (t_files t) d)). { rewrite T. apply run_points; auto; [rewrite MS; auto|]. intros o e I X. apply H3 in X; auto. lia. }
  assert (G : dict_get String.eqb (point_name epoch) (contents (t_files t) d) = Some (CPoint epoch (t_model (t_run t0 ops1)) op)).
  { rewrite T. apply run_keeps_point; [rewrite MS; auto| |intros o e I X; apply H3 in X; auto; lia]. rewrite C2, (dict_get_set String.eqb sd), String.eqb_refl. reflexivity. }
  rewrite (load_point t epoch _ m cd ls d eq_refl CD LS P3 G). cbv zeta.
  assert (M1 : t_mdir t1 = EmptyString) by (unfold t1; rewrite run_mdir; exact MD).
  assert (MT : t_mdir t = EmptyString) by (unfold t; rewrite do_mdir; exact M1).
  destruct (update_writes t1 l f a r p DU) as [t' [U1 U2]].
  assert (TT : t = t') by (unfold t; cbn [t_do]; rewrite U1; reflexivity). rewrite <- TT, TY, M1 in U2.
  assert (OPT : t_opt t = t_opt t1). { unfold t. cbn [t_do]. unfold update_metrics. cbv zeta. match goal with |- context [write_metrics ?x ?b ?s ?y] => destruct (write_same x b s y) as [_ [E _]] end. rewrite E. reflexivity. }
  assert (SV : t_save t = true). { assert (X : t_save t1 = true) by (unfold due in DU; destruct (t_save t1); [reflexivity|discriminate]). rewrite <- X. unfold t. cbn [t_do]. unfold update_metrics. cbv zeta. match goal with |- context [write_metrics ?x ?b ?s ?y] => destruct (write_same x b s y) as [_ [_ [_ [_ [_ [_ [_ [E _]]]]]]]] end. rewrite E. reflexivity. }
  rewrite OPT. destruct (t_opt t1) as [o0|]; [|congruence].
  set (tA := with_files t (mkdir (t_files t) cd)). set (tB := with_states tA _ _ _ _).
  assert (NEc : contents (t_files t) EmptyString <> []) by (intros E; rewrite E in U2; discriminate).
  assert (GD : get_dir (mkdir (t_files t) cd) EmptyString = Some (contents (t_files t) EmptyString)) by (apply mkdir_keeps; apply dir_some; auto).
  assert (R : restore tB m "_train_metrics.pt" (metrics_files tA m) train_keys = (Err KeyError, tB)).
  { unfold restore. cbv zeta. assert (E1 : existsb (String.eqb (m ++ "_train_metrics.pt")%string) (metrics_files tA m) = true).
    { apply existsb_exists. exists (m ++ "_train_metrics.pt")%string. split; [|apply String.eqb_refl]. unfold metrics_files. change (t_files tA) with (mkdir (t_files t) cd). change (t_mdir tA) with (t_mdir t). rewrite MT, GD. apply in_map_iff. exists (m ++ "_train_metrics.pt")%string. split; [apply join_nil; apply plain_app; auto; cbn; repeat split; discriminate|].
      apply filter_In. split; [apply (dict_get_In String.eqb sd) in U2; apply (in_map fst) in U2; exact U2|]. rewrite prefix_app. cbn [andb]. apply ends_app. reflexivity. }
    change (t_save tB) with (t_save t). rewrite SV, E1. cbn [andb]. change (t_files tB) with (mkdir (t_files t) cd). change (t_mdir tB) with (t_mdir t). rewrite MT, GD, U2. cbn. reflexivity. }
  rewrite R. reflexivity.
Qed.
