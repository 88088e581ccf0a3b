(** Further theorems about C64 (checkpoints), C110 (conversion to PyG) and C174 (writing a piece): foreign
    files in a checkpoint directory, graphs of mixed nodes, and signatures pretty_midi refuses. *)
From Coq Require Import Permutation Ascii Lia QArith.
From Verif Require Import PyBase L_Note M_SortedDict M_Note M_Seq M_Chord M_Graph M_Experiments S_Experiments L_Experiments L_Experiments2 M_Dataset M_Ticks M_Meta M_Load M_Song M_Reader M_Seqs M_Pipe M_Convert S_Convert S_Convert3 L_Convert3 P_Convert3.
Open Scope Z_scope.

Lemma ends_pt_ex : forall s, ends_pt s = true -> exists a, s = (a ++ ".pt")%string.
Proof.
  induction s as [|c s IH]; intros H; [discriminate|]. cbn [ends_pt] in H. destruct (String.eqb_spec (String c s) ".pt") as [E|E]; [exists EmptyString; exact E|].
  destruct (IH H) as [a ->]. exists (String c a). reflexivity.
Qed.
(** C64: hidden files and files that do not end in .pt are not checkpoints: with nothing else in the directory
    loading changes nothing. *)
Theorem C64_ignored : forall t m cd ls l, cd <> EmptyString -> (forall x, Permutation (ls x) x) ->
  get_dir (mkdir (t_files t) cd) (join cd m) = Some l ->
  (forall n, In n (map fst l) -> (exists r, n = String "." r) \/ (forall a, n <> (a ++ ".pt")%string)) ->
  load_checkpoint t m cd ls = (Ok tt, with_files t (mkdir (t_files t) cd)).
Proof.
  intros t m cd ls l C P G H. assert (F : filter globbed (map fst l) = []).
  { induction (map fst l) as [|n k IH]; [reflexivity|]. cbn [filter]. assert (N : globbed n = false).
    { destruct (globbed n) eqn:E; auto. exfalso. destruct (H n (or_introl eq_refl)) as [[r ->]|B]; [discriminate|].
      assert (X : ends_pt n = true) by (destruct n as [|c r]; [discriminate|]; cbn [globbed] in E; destruct c as [[] [] [] [] [] [] [] []]; try exact E; discriminate).
      destruct (ends_pt_ex n X) as [a A]. exact (B a A). }
    rewrite N. apply IH. intros x I. apply H. simpl. auto. }
  unfold load_checkpoint. destruct cd as [|c0 cd0]; [congruence|]. rewrite G, F.
  assert (LS : ls [] = []) by (apply Permutation_nil; symmetry; apply P). rewrite LS. reflexivity.
Qed.
Print Assumptions C64_ignored.
(** C64: a visible .pt file whose name does not end in an underscore and a whole number makes loading raise
    ValueError, whatever checkpoints are there. *)
Theorem C64_foreign : forall t m cd ls l base tail n, cd <> EmptyString -> (forall x, Permutation (ls x) x) ->
  get_dir (mkdir (t_files t) cd) (join cd m) = Some l -> In n (map fst l) -> n = (base ++ ".pt")%string ->
  (base = tail \/ exists a, base = (a ++ "_" ++ tail)%string) -> has_us tail = false -> py_int tail = None -> (forall r, n <> String "." r) ->
  load_checkpoint t m cd ls = (Err ValueError, with_files t (mkdir (t_files t) cd)).
Proof.
  intros t m cd ls l base tail n C P G I NB BT US PI ND.
  assert (GL : globbed n = true).
  { assert (X : ends_pt n = true) by (rewrite NB; apply ends_pt_app). destruct n as [|c r]; [discriminate|].
    destruct (Ascii.eqb_spec c ".") as [->|NE]; [exfalso; exact (ND r eq_refl)|]. cbn [globbed]. destruct c as [[] [] [] [] [] [] [] []]; try exact X. congruence. }
  assert (LF : last_field base = tail).
  { clear - US BT. assert (L0 : forall x, has_us x = false -> last_field x = x).
    { induction x as [|c x IH]; intros U; [reflexivity|]. cbn [has_us] in U. apply Bool.orb_false_iff in U as [U1 U2]. cbn [last_field]. rewrite U2, U1. reflexivity. }
    destruct BT as [->|[a ->]]; [apply L0; exact US|]. induction a as [|c a IH].
    - change ("" ++ "_" ++ tail)%string with (String "_" tail). cbn [last_field]. rewrite US. reflexivity.
    - change (String c a ++ "_" ++ tail)%string with (String c (a ++ "_" ++ tail)). cbn [last_field].
      assert (HU : has_us (a ++ "_" ++ tail) = true). { clear. induction a as [|c a IH]; [reflexivity|]. cbn [append has_us] in *. rewrite IH. apply Bool.orb_true_r. }
      rewrite HU. exact IH. }
  assert (ST : stem n = base).
  { rewrite NB. unfold stem. assert (LN : forall a b, String.length (a ++ b) = (String.length a + String.length b)%nat) by (induction a as [|c a IH]; intros b; [reflexivity|]; cbn; rewrite IH; reflexivity).
    rewrite LN. change (String.length ".pt") with 3%nat. replace (String.length base + 3 - 3)%nat with (String.length base) by lia.
    clear. induction base as [|c a IH]; [reflexivity|]. cbn [String.length append substring]. rewrite IH. reflexivity. }
  assert (FK : file_key n = None) by (unfold file_key; rewrite ST, LF; exact PI).
  unfold load_checkpoint. destruct cd as [|c0 cd0]; [congruence|]. rewrite G.
  assert (IN : In n (ls (filter globbed (map fst l)))) by (eapply Permutation_in; [symmetry; apply P|]; apply filter_In; auto).
  destruct (ls (filter globbed (map fst l))) as [|x xs] eqn:E; [destruct IN|]. rewrite <- E in *.
  replace (forallb (fun n0 => match file_key n0 with Some _ => true | None => false end) (ls (filter globbed (map fst l)))) with false; [reflexivity|].
  symmetry. apply Bool.not_true_iff_false. intros Q. rewrite forallb_forall in Q. rewrite E in IN. rewrite E in Q. specialize (Q n IN). rewrite FK in Q. discriminate.
Qed.
Print Assumptions C64_foreign.
(** C64: "checkpoint_best.pt" beside a checkpoint. *)
Example C64_foreign_case :
  let l := [(point_name 3, CPoint 3 7 8); ("checkpoint_best.pt"%string, CPoint 3 7 8)] in
  let t := mkT 0 None 0 0 (fun _ => []) "" "" false 0 [("run"%string, []); ("run/GCN"%string, l)] in
  load_checkpoint t "GCN" "run" (fun x => x) = (Err ValueError, t).
Proof. vm_compute. reflexivity. Qed.
(** C110: a graph with nodes made by build_sequence and merged nodes is refused with ValueError (the nodes do
    not have the same attributes). *)
Theorem C110_mixed : forall g k1 x lb h k2 ns, In (k1, NChord x lb h) (g_nodes g) -> In (k2, NMerged ns) (g_nodes g) ->
  from_midi_networkx g = Err ValueError /\ real_conv g = Some ValueError.
Proof.
  intros g k1 x lb h k2 ns I1 I2. assert (K : same_keys g = false).
  { unfold same_keys. destruct (g_nodes g) as [|[k n] r]; [destruct I1|]. destruct n as [x0 l0 h0|ns0].
    - destruct I2 as [I2|I2]; [discriminate|]. apply Bool.not_true_iff_false. intros F. rewrite forallb_forall in F. exact (Bool.diff_false_true (F _ I2)).
    - destruct I1 as [I1|I1]; [discriminate|]. apply Bool.not_true_iff_false. intros F. rewrite forallb_forall in F. exact (Bool.diff_false_true (F _ I1)). }
  unfold real_conv, from_midi_networkx. rewrite K. split; reflexivity.
Qed.
Print Assumptions C110_mixed.
(** C195: the error is ValueError whenever the object could be converted without its signatures. *)
Theorem C195_error : forall so b t raw, last_end so t -> convert_raw (M_Reader.mkSong (so_ms so) (so_total so) [] (so_tempos so) []) (Some b) = Ok raw ->
  (exists s, In s (so_times so) /\ (g_time s <= t)%Q /\ ~ time_proper s) \/ (exists s, In s (so_keys so) /\ (g_time s <= t)%Q /\ ~ key_proper s) ->
  convert_raw so (Some b) = Err ValueError.
Proof.
  intros so b t raw LE R H. pose proof (C195_refused so b t LE H) as NO. unfold convert_raw in *. cbv zeta in *. cbn [so_ms so_tempos so_times so_keys] in R.
  destruct (truncate_to (so_ms so) (Some b)) as [t'|x]; cbn [bind] in *; [|discriminate].
  destruct (pm_new _ _) as [p0|x]; cbn [bind] in *; [|discriminate].
  assert (VE : forall A B (f : A -> res B) l, (forall a x, f a = Err x -> x = ValueError) -> forall x, mapM f l = Err x -> x = ValueError).
  { intros A B f l F. induction l as [|a l IH]; intros x E; cbn in E; [discriminate|]. destruct (f a) as [v|y] eqn:FA; cbn in E; [|injection E as <-; eapply F; eauto].
    destruct (mapM f l) as [vs|y]; cbn in E; [discriminate|]. injection E as <-. apply IH. reflexivity. }
  destruct (put_times (slice_time (so_times so) _)) as [ti|x] eqn:PT; cbn [bind] in *.
  2:{ f_equal. eapply VE; [|exact PT]. intros a y. cbn beta zeta. match goal with |- context [if ?c then _ else _] => destruct c end; congruence. }
  destruct (put_keys (slice_key (so_keys so) _)) as [ke|x] eqn:PK; cbn [bind] in *.
  2:{ f_equal. eapply VE; [|exact PK]. intros a y. cbn beta zeta. match goal with |- (if ?c then _ else _) = _ -> _ => destruct c end; congruence. }
  assert (SN : forall A u, @slice_time A [] u = [] /\ @slice_key A [] u = []) by (intros A [u|]; split; reflexivity).
  rewrite (proj1 (SN _ _)), (proj2 (SN _ _)) in R. cbn [put_times put_keys mapM bind] in R. destruct (put_tempi p0 _) as [p1|x]; cbn [bind] in *; [|discriminate].
  destruct (conv_insts _ _ _) as [l|x]; cbn [bind] in *; [|discriminate]. exfalso. eapply NO. reflexivity.
Qed.
Print Assumptions C195_error.
(** C195: a piece with its last note from 2 to 5 and a key signature 40. *)
Example C195_error_case : exists so raw, read f195 = Ok so /\
  convert_raw (M_Reader.mkSong (so_ms so) (so_total so) [] (so_tempos so) []) (Some 5%Q) = Ok raw /\ (exists t, last_end so t /\ (2 <= t)%Q) /\
  convert_raw (M_Reader.mkSong (so_ms so) (so_total so) (so_keys so ++ [mkSig 2 0 (40, false)]) (so_tempos so) (so_times so)) (Some 5%Q) = Err ValueError.
Proof.
  do 2 eexists. split; [vm_compute; reflexivity|]. split; [vm_compute; reflexivity|]. split; [|vm_compute; reflexivity].
  eexists. split; [eapply (truncate_last _ 5%Q); vm_compute; reflexivity|vm_compute; discriminate].
Qed.
(** C64, C110: concrete cases. *)
Example C64_ignored_case :
  let l := [(".checkpoint_3.pt"%string, CPoint 3 7 8); ("notes.txt"%string, CBroken); ("checkpoint_4.pt.tmp"%string, CPoint 4 9 9)] in
  let t := mkT 0 None 0 0 (fun _ => []) "" "" false 0 [("run"%string, []); ("run/GCN"%string, l)] in
  (forall n, In n (map fst l) -> (exists r, n = String "." r) \/ (forall a, n <> (a ++ ".pt")%string)) /\
  load_checkpoint t "GCN" "run" (fun x => x) = (Ok tt, t).
Proof.
  cbv zeta. split; [|vm_compute; reflexivity]. cbn. intros n [<-|[<-|[<-|[]]]]; [left; eexists; reflexivity| |]; right; intros a E.
  - assert (X : ends_pt "notes.txt" = true) by (rewrite E; apply ends_pt_app). vm_compute in X. discriminate.
  - assert (X : ends_pt "checkpoint_4.pt.tmp" = true) by (rewrite E; apply ends_pt_app). vm_compute in X. discriminate.
Qed.
Example C110_mixed_case : real_conv (mkG [(5, NChord (Vec [60; 0]) (LHash 5) 5); (7, NMerged [1; 2])] [((5, 7), 1)]) = Some ValueError.
Proof. vm_compute. reflexivity. Qed.
