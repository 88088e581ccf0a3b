(** Properties C186 and C187: gathering the listed MIDI files. *)
From Coq Require Import Lia.
From Verif Require Import PyBase S_Seq M_Download S_Download L_Download.

(** C186: when a listed file is not yet among the raw files, every listed file is copied under its name: the raw
    file of an entry holds what the last entry of that name holds, nothing else on the disk changes, and the
    list of the caller is overwritten by the names. *)
Theorem C186_copied : forall cwd raw s files, usual cwd raw s files -> ~ all_there raw s files ->
  exists s', gather cwd raw s files = (Done, (s', map by_name files)) /\
    (forall q, (forall f, In f files -> q <> raw ++ [base f]) -> s' q = s q) /\
    (forall f, In f files -> exists g, last_named files f g /\ s' (source raw (by_name f)) = s (source cwd g)).
Proof.
  intros cwd raw s files U N. destruct (download_usual cwd raw files s U) as (s' & E & K & L). exists s'.
  split; [rewrite gather_go by exact N; exact E|]. split; [exact K|]. intros f Hf. destruct (L f Hf) as (g & c & LN & E1 & E2).
  exists g. split; [exact LN|]. change (source raw (by_name f)) with (raw ++ [base f]). congruence.
Qed.
Print Assumptions C186_copied.
(** C186: with different names every raw file is a copy of the listed file, in order. *)
Theorem C186_distinct : forall cwd raw s files, usual cwd raw s files -> ~ all_there raw s files -> NoDup (map base files) ->
  exists s' files', gather cwd raw s files = (Done, (s', files')) /\
    Forall2 (fun f p => s' p = s (source cwd f)) files (raw_paths raw files').
Proof.
  intros cwd raw s files U N ND. destruct (C186_copied cwd raw s files U N) as (s' & E & _ & L). exists s', (map by_name files).
  split; [exact E|]. clear E U N. assert (H : forall f, In f files -> s' (source raw (by_name f)) = s (source cwd f)).
  { intros f Hf. destruct (L f Hf) as (g & (l1 & l2 & E1 & E2 & E3) & E4). assert (g = f) as ->; [|exact E4].
    subst files. clear -ND Hf E2 E3. rewrite map_app in ND. cbn [map] in ND. apply NoDup_remove in ND. destruct ND as [_ ND].
    apply in_app_iff in Hf. destruct Hf as [Hf|[Hf|Hf]]; [| exact Hf | exfalso; exact (E3 f Hf eq_refl)].
    exfalso. apply ND. apply in_app_iff. left. rewrite E2. apply in_map, Hf. }
  clear L ND. induction files as [|f r IH]; cbn [map raw_paths]; [constructor|]. constructor.
  - apply H. left. reflexivity.
  - apply IH. intros x Hx. apply H. right. exact Hx.
Qed.
Print Assumptions C186_distinct.
(** C186: two files with one name: both entries now mean the same raw file, and the earlier content is gone. *)
Theorem C186_same_name : forall cwd raw s l1 f l2 g, let files := l1 ++ f :: l2 ++ [g] in
  usual cwd raw s files -> ~ all_there raw s files -> base f = base g ->
  exists s' files', gather cwd raw s files = (Done, (s', files')) /\
    nth_error (raw_paths raw files') (List.length l1) = nth_error (raw_paths raw files') (List.length l1 + 1 + List.length l2)%nat /\
    exists p, nth_error (raw_paths raw files') (List.length l1) = Some p /\ s' p = s (source cwd g).
Proof.
  intros cwd raw s l1 f l2 g files U N B. destruct (C186_copied cwd raw s files U N) as (s' & E & _ & L). exists s', (map by_name files). split; [exact E|].
  assert (H1 : nth_error (raw_paths raw (map by_name files)) (List.length l1) = Some (raw ++ [base f])).
  { unfold raw_paths, files. rewrite !map_app, nth_error_app2 by (rewrite !map_length; lia). rewrite !map_length, Nat.sub_diag. reflexivity. }
  assert (H2 : nth_error (raw_paths raw (map by_name files)) (List.length l1 + 1 + List.length l2)%nat = Some (raw ++ [base g])).
  { unfold raw_paths, files. rewrite !map_app, nth_error_app2 by (rewrite !map_length; lia). rewrite !map_length.
    replace (List.length l1 + 1 + List.length l2 - List.length l1)%nat with (Datatypes.S (List.length l2))%nat by lia. cbn [map nth_error].
    rewrite !map_app, nth_error_app2 by (rewrite !map_length; lia). rewrite !map_length, Nat.sub_diag. reflexivity. }
  rewrite H1, H2, B. split; [reflexivity|]. eexists. split; [reflexivity|].
  assert (Hg : In g files) by (unfold files; apply in_app_iff; right; right; apply in_app_iff; right; left; reflexivity).
  destruct (L g Hg) as (h & (a & b & E1 & E2 & E3) & E4). assert (h = g) as ->; [|exact E4].
  destruct b as [|z b] using rev_ind.
  - unfold files in E1. rewrite app_comm_cons, app_assoc in E1. apply app_inj_tail in E1. symmetry. exact (proj2 E1).
  - exfalso. unfold files in E1. rewrite (app_comm_cons l2), app_assoc in E1. rewrite app_comm_cons, (app_assoc a) in E1. apply app_inj_tail in E1.
    destruct E1 as [_ <-]. apply (E3 g); [apply in_app_iff; right; left; reflexivity|reflexivity].
Qed.
Print Assumptions C186_same_name.
(** C186: when every entry already exists in the raw directory (or is absolute and exists), nothing is copied: an old
    raw file is used even if the listed file has changed. *)
Theorem C186_stale : forall cwd raw s files, all_there raw s files -> gather cwd raw s files = (Done, (s, files)).
Proof. exact gather_skip. Qed.
Print Assumptions C186_stale.

(** C186: a directory in the list is passed over: its entry stays as it is, and the files are copied as they are without it. *)
Theorem C186_directories : forall cwd raw files s k, (forall f, In f files -> s (source cwd f) = Some FDir \/ usual cwd raw s [f]) ->
  selects (fun f => s (source cwd f) <> Some FDir) files k -> ~ all_there raw s files ->
  exists s' files', download cwd raw s k = (Done, (s', map by_name k)) /\ gather cwd raw s files = (Done, (s', files')) /\
    Forall2 (fun f f' => (s (source cwd f) = Some FDir -> f' = f) /\ (s (source cwd f) <> Some FDir -> f' = by_name f)) files files'.
Proof.
  intros cwd raw files s k U SE N. rewrite gather_go by exact N. clear N. revert s U SE. revert k. induction files as [|f files IH]; intros k s U SE.
  - inversion SE; subst. exists s, []. split; [reflexivity|]. split; [reflexivity|constructor].
  - inversion SE as [|x l k' P SE'|x l k' P SE']; subst.
    + destruct (U f (or_introl eq_refl)) as [D|U1]; [congruence|]. destruct (U1 f (or_introl eq_refl)) as (P1 & (c & E) & O & D).
      assert (DIR : forall p, s p = Some FDir <-> put s (raw ++ [base f]) c p = Some FDir).
      { intros p. destruct (list_eq_dec string_dec p (raw ++ [base f])) as [->|NE]; [rewrite put_same; split; [congruence|discriminate]|rewrite put_other by exact NE; reflexivity]. }
      destruct (IH k' (put s (raw ++ [base f]) c)) as (s' & files' & A & B & C).
      * intros g G. destruct (U g (or_intror G)) as [X|X]; [left; apply DIR; exact X|right; apply usual_put; exact X].
      * clear -SE' DIR. induction SE'; constructor; auto; rewrite <- DIR; auto.
      * exists s', (by_name f :: files'). split; [|split].
        -- cbn [download map]. rewrite from_dir_source, E, (name_source cwd f P1), copy_usual by auto. rewrite A. reflexivity.
        -- cbn [download]. rewrite from_dir_source, E, (name_source cwd f P1), copy_usual by auto. rewrite B. reflexivity.
        -- constructor; [split; [intros X; congruence|reflexivity]|]. clear -C DIR. induction C as [|x y a b [H1 H2] C I]; constructor; auto. rewrite <- DIR in H1, H2. auto.
    + assert (X : s (source cwd f) = Some FDir). { destruct (s (source cwd f)) as [[c|]|] eqn:E; auto; exfalso; apply P; congruence. }
      destruct (IH k s) as (s' & files' & A & B & C); [intros g G; apply U; right; exact G|exact SE'|]. exists s', (f :: files'). split; [exact A|]. split.
      * cbn [download]. rewrite from_dir_source, X. rewrite B. reflexivity.
      * constructor; auto. split; [reflexivity|congruence].
Qed.
Print Assumptions C186_directories.

(** C187: a missing file stops the copying with RuntimeError: the files before it are copied, and the entries
    before it in the caller's list are overwritten by names. *)
Theorem C187_missing : forall cwd raw s a f b, usual cwd raw s a -> s (source cwd f) = None -> (forall n, source cwd f <> raw ++ [n]) ->
  ~ all_there raw s (a ++ f :: b) ->
  exists s', gather cwd raw s (a ++ f :: b) = (Missing, (s', map by_name a ++ f :: b)) /\ download cwd raw s a = (Done, (s', map by_name a)).
Proof.
  intros cwd raw s a f b U M O N. rewrite gather_go by exact N. destruct (download_app cwd raw a s (f :: b) U) as (s1 & E1 & E2).
  destruct (download_usual cwd raw a s U) as (s1' & E1' & K & _). assert (s1' = s1) as -> by congruence.
  exists s1. split; [|exact E1]. rewrite E2. cbn [download]. rewrite from_dir_source, K, M by (intros x _; apply O). reflexivity.
Qed.
Print Assumptions C187_missing.
(** C187: trying again with the same list fails, wherever the missing file has been put since, as long as a raw file is missing
    and the working directory has no file of the name of the first entry: the names are looked up there, not in
    the raw directory. *)
Theorem C187_retry : forall cwd raw s a f b, a <> [] -> usual cwd raw s a -> s (source cwd f) = None -> (forall n, source cwd f <> raw ++ [n]) ->
  ~ all_there raw s (a ++ f :: b) ->
  exists s' files', gather cwd raw s (a ++ f :: b) = (Missing, (s', files')) /\
    forall s2, (exists g, hd_error a = Some g /\ s2 (cwd ++ [base g]) = None) -> ~ all_there raw s2 files' ->
      gather cwd raw s2 files' = (Missing, (s2, files')).
Proof.
  intros cwd raw s a f b NE U M O N. destruct (C187_missing cwd raw s a f b U M O N) as (s' & E & _). exists s', (map by_name a ++ f :: b).
  split; [exact E|]. intros s2 (g & HG & EG) N2. rewrite gather_go by exact N2. destruct a as [|g' a]; [congruence|]. injection HG as ->.
  cbn [map app download]. change (from_dir cwd (by_name g)) with (cwd ++ [base g]). rewrite EG. reflexivity.
Qed.
Print Assumptions C187_retry.

(** Non-vacuity: two files in different directories with one name, then a missing one. *)
Local Open Scope string_scope.
Local Definition cwd0 := ["home"]. Local Definition raw0 := ["data"; "raw"].
Local Definition fs0 : fsys := fun p => if path_eqb p ["home"; "x"; "a.mid"] then Some (FFile 1) else if path_eqb p ["home"; "y"; "a.mid"] then Some (FFile 2)
  else if path_eqb p raw0 then Some FDir else None.
Local Definition fx := mkPath false ["x"; "a.mid"]. Local Definition fy := mkPath true ["home"; "y"; "a.mid"]. Local Definition fz := mkPath false ["z.mid"].
Example C186_case : usual cwd0 raw0 fs0 [fx; fy] /\ ~ all_there raw0 fs0 [fx; fy] /\
  exists s', gather cwd0 raw0 fs0 [fx; fy] = (Done, (s', [by_name fx; by_name fy])) /\ s' (source raw0 (by_name fx)) = Some (FFile 2).
Proof.
  split; [|split].
  - intros f [<-|[<-|[]]]; (split; [discriminate|]); (split; [eexists; reflexivity|]); (split; [intros n H; discriminate H|discriminate]).
  - intros H. apply (H fx); [left; reflexivity|reflexivity].
  - eexists. split; reflexivity.
Qed.
Example C186_directories_case : exists s', gather cwd0 raw0 fs0 [mkPath true raw0; fx] = (Done, (s', [mkPath true raw0; by_name fx])) /\
  s' (source raw0 (by_name fx)) = Some (FFile 1).
Proof. eexists. split; reflexivity. Qed.
Example C187_case : usual cwd0 raw0 fs0 [fx] /\ fs0 (source cwd0 fz) = None /\ ~ all_there raw0 fs0 ([fx] ++ fz :: []) /\
  exists s', gather cwd0 raw0 fs0 ([fx] ++ fz :: []) = (Missing, (s', [by_name fx; fz])) /\
    gather cwd0 raw0 (put s' ["home"; "z.mid"] 3) [by_name fx; fz] = (Missing, (put s' ["home"; "z.mid"] 3, [by_name fx; fz])).
Proof.
  split; [|split; [reflexivity|split]].
  - intros f [<-|[]]; (split; [discriminate|]); (split; [eexists; reflexivity|]); (split; [intros n H; discriminate H|discriminate]).
  - intros H. apply (H fx); [left; reflexivity|reflexivity].
  - eexists. split; reflexivity.
Qed.
