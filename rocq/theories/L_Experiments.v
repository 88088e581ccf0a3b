(** Lemmas for P_Experiments.v. *)
From Coq Require Import Sorted Permutation Ascii DecimalString DecimalZ Lia.
From Verif Require Import PyBase L_Base M_Chord L_Chord M_Experiments S_Experiments.
Open Scope Z_scope.

(** ** Names *)
Lemma has_us_app : forall a b, has_us (a ++ b) = has_us a || has_us b.
Proof. induction a as [|c a IH]; intros b; cbn; auto. rewrite IH, orb_assoc. reflexivity. Qed.
Lemma digits_no_us : forall d, has_us (NilEmpty.string_of_uint d) = false.
Proof. induction d; cbn; auto. Qed.
Lemma str_no_us : forall z, has_us (py_str z) = false.
Proof.
  intros z. unfold py_str, NilZero.string_of_int. destruct (Z.to_int z) as [d|d]; cbn; unfold NilZero.string_of_uint; destruct d; cbn; auto; apply digits_no_us.
Qed.
Lemma last_field_us : forall a b, has_us b = false -> last_field (a ++ String "_" b) = b.
Proof.
  induction a as [|c a IH]; intros b H; cbn [append last_field].
  - rewrite H. reflexivity.
  - rewrite has_us_app. cbn [has_us]. rewrite Ascii.eqb_refl. cbn [orb]. rewrite orb_true_r. apply IH. exact H.
Qed.
Lemma sub_app : forall a b, substring 0 (String.length a) (a ++ b) = a.
Proof. induction a as [|c a IH]; intros b; cbn; [destruct b; reflexivity|]. rewrite IH. reflexivity. Qed.
Lemma len_app : forall a b, String.length (a ++ b) = (String.length a + String.length b)%nat.
Proof. induction a; intros; cbn; auto. Qed.
Lemma stem_pt : forall a, stem (a ++ ".pt") = a.
Proof. intros a. unfold stem. rewrite len_app. cbn [String.length]. replace (String.length a + 3 - 3)%nat with (String.length a) by lia. apply sub_app. Qed.
Lemma app_assoc_s : forall a b c, ((a ++ b) ++ c)%string = (a ++ (b ++ c))%string.
Proof. induction a; intros; cbn; auto. rewrite IHa. reflexivity. Qed.
Lemma py_int_str : forall z, py_int (py_str z) = Some z.
Proof.
  intros z. assert (I : NilZero.int_of_string (py_str z) = Some (Z.to_int z)).
  { unfold py_str. apply NilZero.isi; destruct z; cbn; try discriminate; intros E; injection E; apply DecimalPos.Unsigned.to_uint_nonnil. }
  unfold py_int. destruct (py_str z) as [|c r] eqn:E; [discriminate|]. assert (P : c <> "+"%char).
  { intros ->. unfold py_str, NilZero.string_of_int in E. destruct (Z.to_int z) as [d|d]; [|discriminate]. unfold NilZero.string_of_uint in E. destruct d; discriminate. }
  assert (G : option_map Z.of_int (NilZero.int_of_string (String c r)) = Some z) by (rewrite I; cbn [option_map]; rewrite of_to; reflexivity).
  destruct c as [[|] [|] [|] [|] [|] [|] [|] [|]]; try exact G. exfalso. apply P. reflexivity.
Qed.
Lemma key_name : forall e, file_key (point_name e) = Some e.
Proof.
  intros e. unfold file_key, point_name. rewrite <- app_assoc_s, stem_pt. change ("checkpoint_" ++ py_str e)%string with ("checkpoint" ++ String "_" (py_str e))%string. rewrite last_field_us by apply str_no_us. apply py_int_str.
Qed.
Lemma name_inj : forall a b, point_name a = point_name b -> a = b.
Proof. intros a b E. pose proof (key_name a) as A. rewrite E, key_name in A. congruence. Qed.
Lemma ends_pt_app : forall a, ends_pt (a ++ ".pt") = true.
Proof. induction a as [|c a IH]; [reflexivity|]. cbn [append ends_pt]. destruct (String.eqb _ _); [reflexivity|exact IH]. Qed.
Lemma name_globbed : forall e, globbed (point_name e) = true.
Proof. intros e. unfold point_name. change (globbed ("checkpoint_" ++ py_str e ++ ".pt")) with (ends_pt ("checkpoint_" ++ py_str e ++ ".pt")). rewrite <- app_assoc_s. apply ends_pt_app. Qed.

(** ** Directories *)
Definition sd := String.eqb_spec.
Definition contents (f : files) (d : string) : dir := match get_dir f d with Some l => l | None => [] end.
Lemma mkdir_get : forall f d d', get_dir (mkdir f d) d' = if String.eqb d d' then Some (contents f d) else get_dir f d'.
Proof.
  intros f d d'. unfold mkdir, contents. destruct (get_dir f d) as [l|] eqn:E.
  - destruct (String.eqb_spec d d') as [<-|]; auto.
  - unfold get_dir in *. rewrite (dict_get_set String.eqb sd). reflexivity.
Qed.
Lemma mkdir_contents : forall f d d', contents (mkdir f d) d' = contents f d'.
Proof. intros f d d'. unfold contents at 1. rewrite mkdir_get. destruct (String.eqb_spec d d') as [<-|]; reflexivity. Qed.
Lemma mkdir_keeps : forall f d d' l, get_dir f d' = Some l -> get_dir (mkdir f d) d' = Some l.
Proof. intros f d d' l E. rewrite mkdir_get. destruct (String.eqb_spec d d') as [->|]; auto. unfold contents. rewrite E. reflexivity. Qed.
Lemma put_contents : forall f d n c r f', put_file f d n c = (r, f') -> forall d', contents f' d' = if String.eqb d d' then match r with Ok _ => dict_set String.eqb n c (contents f d') | Err _ => contents f d' end else contents f d'.
Proof.
  intros f d n c r f' H d'. unfold put_file in H. destruct (get_dir f d) as [l|] eqn:E.
  - injection H as <- <-. unfold contents, get_dir in *. rewrite (dict_get_set String.eqb sd). destruct (String.eqb_spec d d') as [<-|]; [rewrite E|]; reflexivity.
  - destruct d as [|ch d]; injection H as <- <-.
    + unfold contents, get_dir in *. rewrite (dict_get_set String.eqb sd). destruct (String.eqb_spec "" d') as [<-|]; [rewrite E|]; reflexivity.
    + destruct (String.eqb _ d'); reflexivity.
Qed.
Lemma put_ok : forall f d n c, get_dir f d <> None -> fst (put_file f d n c) = Ok tt.
Proof. intros f d n c H. unfold put_file. destruct (get_dir f d); [reflexivity|congruence]. Qed.

Lemma save_contents : forall t e o out name c d, contents (t_files (snd (save_checkpoint t e o out name c))) d =
  if String.eqb (join out name) d then dict_set String.eqb (point_name e) (if c then CPoint e (t_model t) o else CBroken) (contents (t_files t) d) else contents (t_files t) d.
Proof.
  intros t e o out name c d. unfold save_checkpoint. cbv zeta. set (f := match get_dir (t_files t) (join out name) with Some _ => t_files t | None => _ end).
  assert (C : forall d', contents f d' = contents (t_files t) d').
  { intros d'. unfold f. destruct (get_dir (t_files t) (join out name)); [reflexivity|]. rewrite mkdir_contents. destruct out; [reflexivity|apply mkdir_contents]. }
  assert (P : get_dir f (join out name) <> None). { unfold f. destruct (get_dir (t_files t) (join out name)) eqn:E; [congruence|]. rewrite mkdir_get, String.eqb_refl. discriminate. }
  pose proof (put_ok f (join out name) (point_name e) (if c then CPoint e (t_model t) o else CBroken) P) as R.
  destruct (put_file f (join out name) _ _) as [r f'] eqn:E. cbn [fst] in R. subst r. cbn [snd with_files t_files]. rewrite (put_contents _ _ _ _ _ _ E). rewrite C. reflexivity.
Qed.
Lemma save_result : forall t e o out name c, fst (save_checkpoint t e o out name c) = Ok tt.
Proof.
  intros. unfold save_checkpoint. cbv zeta. set (f := match get_dir (t_files t) (join out name) with Some _ => t_files t | None => _ end).
  assert (P : get_dir f (join out name) <> None). { unfold f. destruct (get_dir (t_files t) (join out name)) eqn:E; [congruence|]. rewrite mkdir_get, String.eqb_refl. discriminate. }
  pose proof (put_ok f (join out name) (point_name e) (if c then CPoint e (t_model t) o else CBroken) P) as R. destruct (put_file f (join out name) _ _) as [r f'] eqn:E. exact R.
Qed.
Lemma write_contents : forall t b s l d, t_mdir t <> d -> contents (t_files (snd (write_metrics t b s l))) d = contents (t_files t) d.
Proof.
  intros t b s l d N. unfold write_metrics. destruct (due t); [|reflexivity]. cbv zeta. set (f := if b then _ else _). destruct (put_file f (t_mdir t) _ _) as [r f'] eqn:E. cbn [snd with_files t_files]. rewrite (put_contents _ _ _ _ _ _ E).
  destruct (String.eqb_spec (t_mdir t) d); [contradiction|]. unfold f. destruct b; [|reflexivity]. destruct (t_mdir t); [reflexivity|apply mkdir_contents].
Qed.
Lemma write_same : forall t b s l, let t' := snd (write_metrics t b s l) in
  t_model t' = t_model t /\ t_opt t' = t_opt t /\ t_start t' = t_start t /\ t_cur t' = t_cur t /\ t_metric t' = t_metric t /\ t_type t' = t_type t /\ t_mdir t' = t_mdir t /\ t_save t' = t_save t /\ t_rate t' = t_rate t.
Proof. intros t b s l. unfold write_metrics. destruct (due t); [|cbn; repeat split]. cbv zeta. destruct (put_file _ _ _ _). cbn. repeat split. Qed.
Lemma write_mdir : forall t b s l, t_mdir (snd (write_metrics t b s l)) = t_mdir t.
Proof. intros t b s l. destruct (write_same t b s l) as [_ [_ [_ [_ [_ [_ [H _]]]]]]]. exact H. Qed.
Lemma restore_same : forall t m s p k, let t' := snd (restore t m s p k) in
  t_model t' = t_model t /\ t_opt t' = t_opt t /\ t_start t' = t_start t /\ t_cur t' = t_cur t /\ t_type t' = t_type t /\ t_mdir t' = t_mdir t /\ t_save t' = t_save t /\ t_rate t' = t_rate t /\ t_files t' = t_files t.
Proof.
  intros t m s p k. unfold restore. cbv zeta. destruct (_ && _); [|cbn; repeat split]. destruct (get_dir _ _); [|cbn; repeat split]. destruct (dict_get _ _ _) as [[? ? ?|?|]|]; [cbn; repeat split| |cbn; repeat split|cbn; repeat split].
  destruct (read_metrics _ _ _). cbn. repeat split.
Qed.
Lemma load_files : forall t m cd ls, let t' := snd (load_checkpoint t m cd ls) in t_mdir t' = t_mdir t /\ t_files t' = match cd with EmptyString => t_files t | _ => mkdir (t_files t) cd end.
Proof.
  intros t m cd ls. unfold load_checkpoint. destruct cd as [|ch cd]; [split; reflexivity|]. set (D := String ch cd). cbv zeta.
  destruct (get_dir (mkdir (t_files t) D) (join D m)) as [l|]; [|split; reflexivity]. destruct (ls _); [split; reflexivity|]. destruct (forallb _ _); [|split; reflexivity].
  destruct (dict_get _ _ l) as [[e mo o| |]|]; try (split; reflexivity). cbn [with_files t_opt]. destruct (t_opt t); [|split; reflexivity].
  set (t1 := with_states _ _ _ _ _). set (ps := metrics_files _ m).
  destruct (restore t1 m "_train_metrics.pt" ps train_keys) as [[u|x] t2] eqn:R1.
  - destruct (restore t2 m "_validation_metrics.pt" ps val_keys) as [[u2|x] t3] eqn:R2.
    + pose proof (restore_same t1 m "_train_metrics.pt" ps train_keys) as A. rewrite R1 in A. pose proof (restore_same t2 m "_validation_metrics.pt" ps val_keys) as B. rewrite R2 in B. pose proof (restore_same t3 m "_test_metrics.pt" ps test_keys) as C. cbn [snd] in *. cbv zeta in *.
      destruct A as [_ [_ [_ [_ [_ [A1 [_ [_ A2]]]]]]]], B as [_ [_ [_ [_ [_ [B1 [_ [_ B2]]]]]]]], C as [_ [_ [_ [_ [_ [C1 [_ [_ C2]]]]]]]]. rewrite C1, C2, B1, B2, A1, A2. split; reflexivity.
    + pose proof (restore_same t1 m "_train_metrics.pt" ps train_keys) as A. rewrite R1 in A. pose proof (restore_same t2 m "_validation_metrics.pt" ps val_keys) as B. rewrite R2 in B. cbn [snd] in *. cbv zeta in *.
      destruct A as [_ [_ [_ [_ [_ [A1 [_ [_ A2]]]]]]]], B as [_ [_ [_ [_ [_ [B1 [_ [_ B2]]]]]]]]. rewrite B1, B2, A1, A2. split; reflexivity.
  - pose proof (restore_same t1 m "_train_metrics.pt" ps train_keys) as A. rewrite R1 in A. cbn [snd] in *. cbv zeta in *. destruct A as [_ [_ [_ [_ [_ [A1 [_ [_ A2]]]]]]]]. rewrite A1, A2. split; reflexivity.
Qed.
Lemma do_mdir : forall t o, t_mdir (t_do t o) = t_mdir t.
Proof.
  intros t [m op c|e op out name c|ty cd ls|a b c d e|a b c d e f|a b c d|]; cbn [t_do]; try reflexivity.
  - unfold save_checkpoint. cbv zeta. destruct (put_file _ _ _ _). reflexivity.
  - apply load_files.
  - unfold update_metrics. cbv zeta. rewrite write_mdir. reflexivity.
  - unfold update_test_metric. cbv zeta. rewrite write_mdir. reflexivity.
  - unfold update_val_metric. cbv zeta. rewrite write_mdir. reflexivity.
Qed.
Lemma run_mdir : forall ops t, t_mdir (t_run t ops) = t_mdir t.
Proof. induction ops as [|o ops IH]; intros t; [reflexivity|]. change (t_run t (o :: ops)) with (t_run (t_do t o) ops). rewrite IH. apply do_mdir. Qed.
(** What a step does to a directory other than the metrics directory. *)
Lemma do_contents : forall t o d, t_mdir t <> d -> contents (t_files (t_do t o)) d =
  match o with
  | OSave e op out name c => if String.eqb (join out name) d then dict_set String.eqb (point_name e) (if c then CPoint e (t_model t) op else CBroken) (contents (t_files t) d) else contents (t_files t) d
  | _ => contents (t_files t) d
  end.
Proof.
  intros t [m op c|e op out name c|ty cd ls|a b c d e|a b c d e f|a b c d|] dd N; cbn [t_do]; try reflexivity.
  - apply save_contents.
  - destruct (load_files t ty cd ls) as [_ E]. rewrite E. destruct cd; [reflexivity|apply mkdir_contents].
  - unfold update_metrics. cbv zeta. rewrite write_contents by exact N. reflexivity.
  - unfold update_test_metric. cbv zeta. rewrite write_contents by exact N. reflexivity.
  - unfold update_val_metric. cbv zeta. rewrite write_contents by exact N. reflexivity.
Qed.
(** All files of a directory are checkpoints of epochs at most [k]. *)
Definition points (k : Z) (l : dir) : Prop := NoDup (map fst l) /\ forall n, In n (map fst l) -> exists e, n = point_name e /\ e <= k.
Lemma points_set : forall k l e c, points k l -> e <= k -> points k (dict_set String.eqb (point_name e) c l).
Proof.
  intros k l e c [A B] E. split; [apply (dict_set_NoDup String.eqb sd); auto|]. intros n I. rewrite (dict_set_keys String.eqb sd) in I. destruct (dict_get String.eqb (point_name e) l); auto. apply in_app_or in I as [I|[<-|[]]]; eauto.
Qed.
Lemma run_points : forall ops t d k, t_mdir t <> d -> points k (contents (t_files t) d) -> (forall o e, In o ops -> saves_into d o e -> e <= k) -> points k (contents (t_files (t_run t ops)) d).
Proof.
  induction ops as [|o ops IH]; intros t d k N P H; [exact P|]. change (t_run t (o :: ops)) with (t_run (t_do t o) ops). apply IH; [rewrite do_mdir; auto| |intros; eapply H; eauto; right; auto].
  rewrite do_contents by auto. destruct o as [m op c|e op out name c|ty cd ls|a b c0 d0 e|a b c0 d0 e f|a b c0 d0|]; auto. destruct (String.eqb_spec (join out name) d); auto. apply points_set; auto. eapply H; [left; reflexivity|]. repeat eexists; eauto.
Qed.
Lemma run_keeps_point : forall ops t d e c, t_mdir t <> d -> dict_get String.eqb (point_name e) (contents (t_files t) d) = Some c -> (forall o e', In o ops -> saves_into d o e' -> e' <> e) ->
  dict_get String.eqb (point_name e) (contents (t_files (t_run t ops)) d) = Some c.
Proof.
  induction ops as [|o ops IH]; intros t d e c N P H; [exact P|]. change (t_run t (o :: ops)) with (t_run (t_do t o) ops). apply IH; [rewrite do_mdir; auto| |intros; eapply H; eauto; right; auto].
  rewrite do_contents by auto. destruct o as [m op c0|e0 op out name c0|ty cd ls|a b c0 d0 e0|a b c0 d0 e0 f|a b c0 d0|]; auto. destruct (String.eqb_spec (join out name) d); auto. rewrite (dict_get_set String.eqb sd). destruct (String.eqb_spec (point_name e0) (point_name e)) as [E|]; auto.
  exfalso. apply (H (OSave e0 op out name c0) e0); [left; reflexivity|repeat eexists; eauto|apply name_inj; auto].
Qed.

(** ** Loading *)
Lemma last_greatest : forall (key : string -> Z) l x, In x l -> key x <= key (last (py_sort (fun a b => key a <? key b) l) EmptyString) /\ In (last (py_sort (fun a b => key a <? key b) l) EmptyString) l.
Proof.
  intros key l x I. set (s := py_sort (fun a b => key a <? key b) l). assert (P : Permutation l s) by apply py_sort_perm.
  assert (SS : StronglySorted (fun a b => (key b <? key a) = false) s). { apply (py_sort_sorted (fun a b => key a <? key b)); intros; repeat match goal with H : (_ <? _) = true |- _ => apply Z.ltb_lt in H | H : (_ <? _) = false |- _ => apply Z.ltb_ge in H end; apply Z.ltb_ge; lia. }
  apply (Permutation_in _ P) in I. destruct s as [|a s0] eqn:E using rev_ind; [destruct I|]. rewrite last_last. split; [|apply (Permutation_in _ (Permutation_sym P)), in_or_app; right; left; auto].
  apply in_app_or in I as [I|[<-|[]]]; [|lia]. clear - SS I. induction s0 as [|b s0 IH]; [destruct I|]. inversion SS as [|? ? S1 S2]; subst. destruct I as [<-|I]; [|auto]. rewrite Forall_forall in S2. specialize (S2 a). apply Z.ltb_ge. apply S2. apply in_or_app. right. left. auto.
Qed.
Lemma plain_app : forall a b, plain a -> plain b -> plain (a ++ b).
Proof. induction a as [|c a IH]; intros b A B; [exact B|]. destruct A as [A1 A2]. split; auto. Qed.
Lemma plain_app_r : forall a b, plain (a ++ b) -> plain b.
Proof. induction a as [|c a IH]; intros b H; [exact H|]. destruct H as [_ H]. auto. Qed.
Lemma slash_not_plain : forall a, ends_slash a = true -> ~ plain a.
Proof.
  induction a as [|c a IH]; [discriminate|]. cbn [ends_slash plain]. destruct a as [|c' a]; intros H [P1 P2].
  - apply Ascii.eqb_eq in H. contradiction.
  - apply IH; auto.
Qed.
Lemma join_slash : forall a b, a <> EmptyString -> ~ plain (join a b).
Proof.
  intros a b A P. unfold join in P.
  assert (G : ~ plain (match a with EmptyString => b | _ => if ends_slash a then (a ++ b)%string else (a ++ "/" ++ b)%string end)).
  { intros Q. destruct a as [|c a]; [congruence|]. set (s := String c a) in *. destruct (ends_slash s) eqn:E.
    - apply slash_not_plain in E. apply E. clear - Q. induction s as [|x s IH]; [exact I|]. destruct Q as [Q1 Q2]. split; auto.
    - apply plain_app_r in Q. destruct Q as [Q _]. apply Q. reflexivity. }
  destruct b as [|c b]; [exact (G P)|]. destruct c as [[|] [|] [|] [|] [|] [|] [|] [|]]; try exact (G P). destruct P as [P _]. apply P. reflexivity.
Qed.
Lemma restore_skip : forall t t0 m s k, t_mdir t0 <> EmptyString -> plain m -> plain s -> restore t m s (metrics_files t0 m) k = (Ok tt, t).
Proof.
  intros t t0 m s k N P S. unfold restore. cbv zeta. replace (existsb (String.eqb (m ++ s)) (metrics_files t0 m)) with false; [rewrite andb_false_r; reflexivity|].
  symmetry. destruct (existsb _ _) eqn:E; [|reflexivity]. apply existsb_exists in E as [x [I E]]. apply String.eqb_eq in E. subst x. unfold metrics_files in I. destruct (get_dir _ _); [|destruct I]. apply in_map_iff in I as [n [E _]].
  exfalso. apply (join_slash _ n N). rewrite E. apply plain_app; auto.
Qed.
Lemma dir_some : forall f d, contents f d <> [] -> get_dir f d = Some (contents f d).
Proof. intros f d H. unfold contents in *. destruct (get_dir f d); [reflexivity|congruence]. Qed.

Lemma load_point : forall t e c m cd ls d, d = join cd m -> cd <> EmptyString -> (forall l, Permutation (ls l) l) -> points e (contents (t_files t) d) -> dict_get String.eqb (point_name e) (contents (t_files t) d) = Some c ->
  load_checkpoint t m cd ls =
  let t0 := with_files t (mkdir (t_files t) cd) in
  match c with
  | CBroken => (Err RuntimeError, t0)
  | CMetrics _ => (Err KeyError, t0)
  | CPoint ep mo o =>
    match t_opt t with
    | None => (Err AttributeError, with_states t0 mo None (t_start t) (t_cur t))
    | Some _ =>
      let t1 := with_states t0 mo (Some o) (ep + 1) (ep + 1) in
      match restore t1 m "_train_metrics.pt" (metrics_files t0 m) train_keys with
      | (Err x, t2) => (Err x, t2)
      | (Ok _, t2) =>
        match restore t2 m "_validation_metrics.pt" (metrics_files t0 m) val_keys with
        | (Err x, t3) => (Err x, t3)
        | (Ok _, t3) => restore t3 m "_test_metrics.pt" (metrics_files t0 m) test_keys
        end
      end
    end
  end.
Proof.
  intros t e c m cd ls d D CD LS [ND PT] G. unfold load_checkpoint. destruct cd as [|ch cd]; [congruence|]. set (cdd := String ch cd) in *. rewrite <- D.
  assert (NE : contents (t_files t) d <> []) by (intros E; rewrite E in G; discriminate).
  rewrite (mkdir_keeps _ _ _ _ (dir_some _ _ NE)). cbv zeta. set (l := contents (t_files t) d) in *.
  assert (F : filter globbed (map fst l) = map fst l). { clear - PT. induction (map fst l) as [|x k IH]; [reflexivity|]. cbn [filter]. destruct (PT x (or_introl eq_refl)) as [e0 [-> _]]. rewrite name_globbed. f_equal. apply IH. intros n I. apply PT. right. auto. }
  rewrite F. pose proof (LS (map fst l)) as P. set (names := ls (map fst l)) in *.
  assert (IN : In (point_name e) names). { apply (Permutation_in _ (Permutation_sym P)). apply (dict_get_In String.eqb sd) in G. apply (in_map fst) in G. exact G. }
  assert (KN : forall n, In n names -> exists e0, n = point_name e0 /\ e0 <= e) by (intros n I; apply PT; apply (Permutation_in _ P); auto).
  destruct names as [|n0 nr] eqn:EN; [destruct IN|]. rewrite <- EN in *. clearbody names.
  replace (forallb _ names) with true. 2:{ symmetry. apply forallb_forall. intros n I. destruct (KN n I) as [e0 [-> _]]. rewrite key_name. reflexivity. }
  set (key := fun n => match file_key n with Some k => k | None => 0 end).
  assert (L : last (py_sort (fun a b => key a <? key b) names) EmptyString = point_name e).
  { destruct (last_greatest key names _ IN) as [A B]. destruct (KN _ B) as [e0 [E0 L0]]. rewrite E0 in *. unfold key in A. rewrite !key_name in A. f_equal. lia. }
  change (fun a b : string => (match file_key a with Some k => k | None => 0 end) <? (match file_key b with Some k => k | None => 0 end)) with (fun a b => key a <? key b).
  rewrite L, G. destruct c; reflexivity.
Qed.

Lemma load_latest : forall t0 ops1 ops2 epoch opt out name (complete : bool) m cd ls, t_files t0 = [] -> join out name = join cd m -> cd <> EmptyString -> plain m -> t_mdir t0 <> EmptyString -> t_mdir t0 <> join cd m ->
  (forall l, Permutation (ls l) l) ->
  (forall o e, In o ops1 -> saves_into (join cd m) o e -> e <= epoch) -> (forall o e, In o ops2 -> saves_into (join cd m) o e -> e < epoch) ->
  let t := t_run t0 (ops1 ++ OSave epoch opt out name complete :: ops2) in t_opt t <> None ->
  exists t', load_checkpoint t m cd ls = ((if complete then Ok tt else Err RuntimeError), t') /\ t_metric t' = t_metric t /\ keeps_files t t' /\
    if complete then t_model t' = t_model (t_run t0 ops1) /\ t_opt t' = Some opt /\ t_start t' = epoch + 1 /\ t_cur t' = epoch + 1
    else t_model t' = t_model t /\ t_opt t' = t_opt t /\ t_start t' = t_start t /\ t_cur t' = t_cur t.
Proof.
  intros t0 ops1 ops2 epoch opt out name complete m cd ls F J CD PM M1 M2 LS H1 H2 t OP. set (d := join cd m) in *.
  assert (T : t = t_run (t_do (t_run t0 ops1) (OSave epoch opt out name complete)) ops2) by (unfold t, t_run; rewrite fold_left_app; reflexivity).
  assert (P1 : points epoch (contents (t_files (t_run t0 ops1)) d)). { apply run_points; auto. rewrite F. split; [constructor|intros n []]. }
  set (ts := t_do (t_run t0 ops1) (OSave epoch opt out name complete)) in *. assert (MS : t_mdir ts = t_mdir t0) by (unfold ts; rewrite do_mdir; apply run_mdir).
  assert (C2 : contents (t_files ts) d = dict_set String.eqb (point_name epoch) (if complete then CPoint epoch (t_model (t_run t0 ops1)) opt else CBroken) (contents (t_files (t_run t0 ops1)) d)).
  { unfold ts. rewrite do_contents by (rewrite run_mdir; auto). rewrite J, String.eqb_refl. reflexivity. }
  assert (P2 : points epoch (contents (t_files ts) d)) by (rewrite C2; apply points_set; [exact P1|lia]).
  assert (P3 : points epoch (contents (t_files t) d)). { rewrite T. apply run_points; auto; [rewrite MS; auto|]. intros o e I X. apply H2 in X; auto. lia. }
  assert (G : dict_get String.eqb (point_name epoch) (contents (t_files t) d) = Some (if complete then CPoint epoch (t_model (t_run t0 ops1)) opt else CBroken)).
  { rewrite T. apply run_keeps_point; [rewrite MS; auto| |intros o e I X; apply H2 in X; auto; lia]. rewrite C2, (dict_get_set String.eqb sd), String.eqb_refl. reflexivity. }
  rewrite (load_point t epoch _ m cd ls d eq_refl CD LS P3 G). cbv zeta.
  assert (MT : t_mdir t = t_mdir t0) by apply run_mdir. destruct complete.
  - destruct (t_opt t) as [o0|]; [|congruence]. rewrite !restore_skip; try (cbn [with_files t_mdir]; rewrite MT; auto); try (cbn; repeat split; discriminate); auto.
    eexists. split; [reflexivity|]. cbn. split; [reflexivity|]. split; [intros d' l E; cbn; apply mkdir_keeps; exact E|]. repeat split.
  - eexists. split; [reflexivity|]. cbn. split; [reflexivity|]. split; [intros d' l E; cbn; apply mkdir_keeps; exact E|]. repeat split.
Qed.
Lemma run_none : forall ops t d, t_mdir t <> d -> (forall o e, In o ops -> ~ saves_into d o e) -> contents (t_files t) d = [] -> contents (t_files (t_run t ops)) d = [].
Proof.
  induction ops as [|o ops IH]; intros t d N H C; [exact C|]. change (t_run t (o :: ops)) with (t_run (t_do t o) ops). apply IH; [rewrite do_mdir; auto|intros; apply H; right; auto|]. rewrite do_contents by auto. destruct o as [m op c0|e0 op out name c0|ty cd ls|a b c0 d0 e0|a b c0 d0 e0 f|a b c0 d0|]; auto.
  destruct (String.eqb_spec (join out name) d); auto. exfalso. apply (H (OSave e0 op out name c0) e0); [left; auto|repeat eexists; eauto].
Qed.
Lemma load_none : forall t0 ops m cd ls, t_files t0 = [] -> cd <> EmptyString -> t_mdir t0 <> join cd m -> (forall l, Permutation (ls l) l) -> (forall o e, In o ops -> ~ saves_into (join cd m) o e) ->
  let t := t_run t0 ops in load_checkpoint t m cd ls = (Ok tt, with_files t (mkdir (t_files t) cd)).
Proof.
  intros t0 ops m cd ls F CD N LS H t. assert (C : contents (t_files t) (join cd m) = []) by (apply run_none; auto; rewrite F; reflexivity).
  unfold load_checkpoint. destruct cd as [|ch cd]; [congruence|]. set (D := String ch cd) in *. cbv zeta.
  destruct (get_dir (mkdir (t_files t) D) (join D m)) as [l|] eqn:E; [|reflexivity]. assert (l = []) by (rewrite <- (mkdir_contents _ D) in C; unfold contents in C; rewrite E in C; exact C). subst l. cbn [map filter]. pose proof (LS []) as P. apply Permutation_sym, Permutation_nil in P. rewrite P. reflexivity.
Qed.
