(** Properties C55-C58, C65, C95 and C96: graph transforms, one-hot encodings, dataset splits.
    [data] is a torch_geometric Data object; the calls that change their argument return it. *)
From Coq Require Import Sorted Permutation QArith Qround Lia Lqa.
From Verif Require Import PyBase M_Events M_Load M_Transforms S_Seq S_Transforms L_Transforms L_Transforms2.
Open Scope Z_scope.

Definition d_ex : data := mkD None [[10]; [11]; [12]; [13]]%Q (EPairs [(0, 1); (1, 2); (0, 3); (3, 2); (3, 3)]) (Some [5; 6; 7; 8; 9]%Q) (Some [0; 1; 2; 3])
  (Some [true; false; true; false]) (Some [false; true; false; false]) (Some [false; false; false; true]) (Some None) (Some None) None None (Some [100; 101; 102; 103]) false.

(** C55: every node's feature row gets its out-degree appended; nothing else changes but the
    directed mark. *)
Theorem C55_degree : forall d l n w, d_ei d = EPairs l -> num_nodes d = n -> (0 < n)%nat -> List.length (d_x d) = n -> Forall (fun r => List.length r = w) (d_x d) ->
  (forall a b, In (a, b) l -> 0 <= a < Z.of_nat n) ->
  exists x', add_degree d = (Ok tt, set_x (set_directed d) x') /\ List.length x' = n /\
    forall i r, nth_error (d_x d) i = Some r -> nth_error x' i = Some (r ++ [inject_Z (Z.of_nat (out_degree l i))]).
Proof. exact add_degree_rows. Qed.
Print Assumptions C55_degree.
(** C55: in general the features are first cut into equal rows, one per node. *)
Theorem C55_reshape : forall d l n w, d_ei d = EPairs l -> num_nodes d = n -> (0 < n)%nat -> List.length (List.concat (d_x d)) = (n * w)%nat ->
  (forall a b, In (a, b) l -> 0 <= a < Z.of_nat n) ->
  exists x', add_degree d = (Ok tt, set_x (set_directed d) x') /\ List.length x' = n /\
    forall i, (i < n)%nat -> nth_error x' i = Some (firstn w (skipn (i * w) (List.concat (d_x d))) ++ [inject_Z (Z.of_nat (out_degree l i))]).
Proof. exact add_degree_ok. Qed.
Print Assumptions C55_reshape.
(** C55: an edge source that is no node raises and changes nothing. *)
Theorem C55_range : forall d l a b, d_ei d = EPairs l -> In (a, b) l -> ~ 0 <= a < Z.of_nat (num_nodes d) -> add_degree d = (Err RuntimeError, d).
Proof. exact add_degree_bad. Qed.
Print Assumptions C55_range.
Example C55_case : d_x (snd (add_degree d_ex)) = [[10; 2]; [11; 1]; [12; 0]; [13; 2]]%Q /\ d_x (snd (add_degree (snd (add_degree d_ex)))) = [[10; 2; 2]; [11; 1; 1]; [12; 0; 0]; [13; 2; 2]]%Q.
Proof. split; reflexivity. Qed.

(** C56: dropping nodes removes exactly floor(p n) of them; features, targets and masks of the
    others stay in order; with edge attributes exactly the edges between kept nodes remain, with
    their attributes and their old node numbers; without, the sources become the edge index and
    the targets the edge attributes. *)
Theorem C56_drop : forall p perm d n l, (0 <= p)%Q -> (p <= 1)%Q -> Permutation perm (seq 0 n) -> well_formed n l d ->
  (match d_ea d with Some a => List.length a = List.length l | None => True end) ->
  exists ks d', node_drop p perm d = (Ok tt, d') /\
    numbers n (fun i => ~ In i (firstn (drops p n) perm)) ks /\ (List.length ks + drops p n)%nat = n /\
    picked ks (d_x d) (d_x d') /\ opicked ks (d_y d) (d_y d') /\ opicked ks (d_train d) (d_train d') /\ opicked ks (d_val d) (d_val d') /\ opicked ks (d_test d) (d_test d') /\
    num_nodes d' = List.length ks /\ same_rest d d' /\
    match d_ea d with
    | Some a => exists l' a', d_ei d' = EPairs l' /\ d_ea d' = Some a' /\ List.length a' = List.length l' /\ selects (fun ea => among ks (fst ea)) (combine l a) (combine l' a')
    | None => exists l', selects (among ks) l l' /\ d_ei d' = EFlat (map fst l') /\ d_ea d' = Some (map (fun ab => inject_Z (snd ab)) l')
    end.
Proof. exact node_drop_ok. Qed.
Print Assumptions C56_drop.
(** C56: the same for any p: int(p n) is rounded towards 0; a negative number counts from the end, so
    p = -1/4 drops three quarters of the nodes. *)
Theorem C56_any_p : forall p perm d n l z k, Permutation perm (seq 0 n) -> well_formed n l d ->
  (match d_ea d with Some a => List.length a = List.length l | None => True end) ->
  ((0 <= p)%Q /\ z = Qfloor (p * inject_Z (Z.of_nat n))) \/ ((p < 0)%Q /\ z = Qceiling (p * inject_Z (Z.of_nat n))) ->
  (0 <= z /\ Z.of_nat k = Z.min z (Z.of_nat n)) \/ (z < 0 /\ Z.of_nat k = Z.max 0 (Z.of_nat n + z)) ->
  exists ks d', node_drop p perm d = (Ok tt, d') /\
    numbers n (fun i => ~ In i (firstn k perm)) ks /\ (List.length ks + k)%nat = n /\
    picked ks (d_x d) (d_x d') /\ opicked ks (d_y d) (d_y d') /\ opicked ks (d_train d) (d_train d') /\ opicked ks (d_val d) (d_val d') /\ opicked ks (d_test d) (d_test d') /\
    num_nodes d' = List.length ks /\ same_rest d d' /\
    match d_ea d with
    | Some a => exists l' a', d_ei d' = EPairs l' /\ d_ea d' = Some a' /\ List.length a' = List.length l' /\ selects (fun ea => among ks (fst ea)) (combine l a) (combine l' a')
    | None => exists l', selects (among ks) l l' /\ d_ei d' = EFlat (map fst l') /\ d_ea d' = Some (map (fun ab => inject_Z (snd ab)) l')
    end.
Proof. exact node_drop_any. Qed.
Print Assumptions C56_any_p.
(** C56: filter_adj without a number of nodes takes the greatest node number [m] plus one; it keeps the
    edges between kept nodes with their attributes, and refuses a node to keep above [m]. *)
Theorem C56_filter_adj : forall l a keep m, 0 <= m -> (forall x y, In (x, y) l -> 0 <= x <= m /\ 0 <= y <= m) -> (exists x y, In (x, y) l /\ (x = m \/ y = m)) -> List.length a = List.length l ->
  ((forall i, In i keep -> Z.of_nat i <= m) -> exists l' a', filter_adj l (Some a) keep None = Ok (l', Some a') /\ List.length a' = List.length l' /\
     selects (fun ea => among keep (fst ea)) (combine l a) (combine l' a')) /\
  ((exists i, In i keep /\ m < Z.of_nat i) -> filter_adj l (Some a) keep None = Err IndexError).
Proof. exact filter_adj_alone. Qed.
Print Assumptions C56_filter_adj.
Example C56_alone : filter_adj [(0, 1); (1, 2); (2, 2)] (Some [5; 6; 7]%Q) [1; 2]%nat None = Ok ([(1, 2); (2, 2)], Some [6; 7]%Q) /\
  filter_adj [(0, 1); (1, 2)] (Some [5; 6]%Q) [1; 3]%nat None = Err IndexError /\ d_x (snd (node_drop (- (1 # 4)) [1; 3; 0; 2]%nat d_ex)) = [[12]]%Q.
Proof. repeat split; reflexivity. Qed.
(** C56: the number of a kept node still is its position exactly if no node before it was dropped. *)
Theorem C56_numbers : forall n p ks a, numbers n p ks -> (a < n)%nat -> p a -> (nth_error ks a = Some a <-> forall i, (i < a)%nat -> p i).
Proof. exact numbers_fixed. Qed.
Print Assumptions C56_numbers.
Example C56_hyp : well_formed 4 [(0, 1); (1, 2); (0, 3); (3, 2); (3, 3)] d_ex /\ Permutation [1; 3; 0; 2]%nat (seq 0 4).
Proof.
  split.
  - split; [reflexivity|]. split; [reflexivity|]. split; [reflexivity|]. split; [intros a b I; cbn in I; repeat (destruct I as [I|I]; [injection I as <- <-; lia|]); destruct I|].
    split; [eexists; split; reflexivity|]. split; [eexists; split; reflexivity|]. split; [eexists; split; reflexivity|eexists; split; reflexivity].
  - cbn. apply NoDup_Permutation; [repeat constructor; cbn; intuition discriminate|repeat constructor; cbn; intuition discriminate|cbn; intuition].
Qed.
Example C56_case : d_ei (snd (node_drop (1 # 4) [1; 3; 0; 2]%nat d_ex)) = EPairs [(0, 3); (3, 2); (3, 3)] /\ d_ea (snd (node_drop (1 # 4) [1; 3; 0; 2]%nat d_ex)) = Some [7; 8; 9]%Q /\
  d_x (snd (node_drop (1 # 4) [1; 3; 0; 2]%nat d_ex)) = [[10]; [12]; [13]]%Q /\ d_ei (snd (node_drop (1 # 4) [1; 3; 0; 2]%nat (set_edges d_ex (d_ei d_ex) None))) = EFlat [0; 3; 3].
Proof. repeat split; reflexivity. Qed.

(** C57: dropping edges keeps exactly those whose draw is at least p, in order and with their
    attributes; features, targets, masks and hashes stay. *)
Theorem C57_drop : forall p draws d l, d_ei d = EPairs l -> List.length draws = List.length l ->
  (match d_ea d with Some a => List.length a = List.length l | None => True end) ->
  d_pos d = Some None -> d_neg d <> None -> d_train d <> None -> d_val d <> None -> d_test d <> None -> d_hash d <> None ->
  exists d' l', edge_drop p draws d = Ok d' /\ d_ei d' = EPairs l' /\
    selects (fun er => (p <= snd er)%Q) (combine l draws) (combine l' (filter (Qle_bool p) draws)) /\ List.length l' = List.length (filter (Qle_bool p) draws) /\
    d_x d' = d_x d /\ d_y d' = d_y d /\ d_train d' = d_train d /\ d_val d' = d_val d /\ d_test d' = d_test d /\ d_hash d' = d_hash d /\ d_posi d' = None /\ d_negi d' = None /\
    match d_ea d with
    | Some a => exists a', d_ea d' = Some a' /\ selects (fun ear => (p <= snd ear)%Q) (combine (combine l a) draws) (combine (combine l' a') (filter (Qle_bool p) draws)) /\ List.length a' = List.length l'
    | None => d_ea d' = None
    end.
Proof. exact edge_drop_ok. Qed.
Print Assumptions C57_drop.
(** C57: an object without a pos_edge_label attribute, or with labels for another number of edges,
    is refused. *)
Theorem C57_missing : forall p draws d, d_pos d = None -> exists e, edge_drop p draws d = Err e.
Proof. exact edge_drop_missing. Qed.
Print Assumptions C57_missing.
Theorem C57_labels : forall p draws d l pos neg pi, d_ei d = EPairs l -> List.length draws = List.length l ->
  (match d_ea d with Some a => List.length a = List.length l | None => True end) ->
  d_pos d = Some (Some pos) -> d_neg d = Some (Some neg) -> d_posi d = Some pi -> List.length pi <> List.length l -> edge_drop p draws d = Err IndexError.
Proof. exact edge_drop_labels. Qed.
Print Assumptions C57_labels.
(** C57: with labels, the positive and the negative label indices are restricted to the kept edges too. *)
Theorem C57_pos_neg : forall p draws d l pos neg pi ni, d_ei d = EPairs l -> List.length draws = List.length l ->
  (match d_ea d with Some a => List.length a = List.length l | None => True end) ->
  d_pos d = Some (Some pos) -> d_neg d = Some (Some neg) -> d_posi d = Some pi -> d_negi d = Some ni -> List.length pi = List.length l -> List.length ni = List.length l ->
  d_train d <> None -> d_val d <> None -> d_test d <> None -> d_hash d <> None ->
  exists d' l' pi' ni', edge_drop p draws d = Ok d' /\ d_ei d' = EPairs l' /\ d_posi d' = Some pi' /\ d_negi d' = Some ni' /\ d_pos d' = d_pos d /\ d_neg d' = d_neg d /\
    (forall k, In k [(l, l'); (pi, pi'); (ni, ni')] ->
       selects (fun er => (p <= snd er)%Q) (combine (fst k) draws) (combine (snd k) (filter (Qle_bool p) draws)) /\ List.length (snd k) = List.length (filter (Qle_bool p) draws)).
Proof. exact edge_drop_pos_neg. Qed.
Print Assumptions C57_pos_neg.
(** C57: an attribute that is not there raises AttributeError. *)
Theorem C57_attribute : forall p draws d l, d_ei d = EPairs l -> List.length draws = List.length l ->
  (match d_ea d with Some a => List.length a = List.length l | None => True end) ->
  d_pos d = None \/ (d_pos d = Some None /\ (d_neg d = None \/ d_train d = None \/ d_val d = None \/ d_test d = None \/ d_hash d = None)) ->
  edge_drop p draws d = Err AttributeError.
Proof. exact edge_drop_attr. Qed.
Print Assumptions C57_attribute.
Example C57_case : match edge_drop (1 # 2) [1 # 4; 1 # 2; 3 # 4; 0; 2 # 3]%Q d_ex with Ok d => d_ei d = EPairs [(1, 2); (0, 3); (3, 3)] /\ d_ea d = Some [6; 7; 9]%Q | Err _ => False end.
Proof. split; reflexivity. Qed.

(** C58: np_onehot gives one row per index, of the given depth, true exactly at the position the
    index designates (negative ones from the end). *)
Theorem C58_rows : forall l depth, 0 <= depth -> (forall i, In i l -> - depth <= i < depth) ->
  exists rows, np_onehot l depth = Ok rows /\
    Forall2 (fun i row => Z.of_nat (List.length row) = depth /\ exists k, designates (Z.to_nat depth) i k /\ forall j, nth_error row j = Some true <-> j = k) l rows.
Proof.
  intros l depth D H. unfold np_onehot. destruct (Z.ltb_spec depth 0); [lia|]. destruct (hot_rows_ok (Z.to_nat depth) l) as [rows [R F]]; [rewrite Z2Nat.id by auto; exact H|]. exists rows. split; [exact R|].
  clear - F D. induction F as [|i row l rows [L K] F IH]; constructor; auto. split; [lia|exact K].
Qed.
Print Assumptions C58_rows.
(** C58: any other index raises IndexError. *)
Theorem C58_range : forall l depth i, 0 <= depth -> In i l -> ~ (- depth <= i < depth) -> np_onehot l depth = Err IndexError.
Proof. intros l depth i D I N. unfold np_onehot. destruct (Z.ltb_spec depth 0); [lia|]. apply (hot_rows_bad _ _ i I). rewrite Z2Nat.id by auto. exact N. Qed.
Print Assumptions C58_range.
Example C58_case : np_onehot [2; 0; -1] 3 = Ok [[false; false; true]; [true; false; false]; [false; false; true]] /\ np_onehot [0; 3] 3 = Err IndexError.
Proof. split; reflexivity. Qed.

(** C65: remove_nodes_and_edges keeps the features of the nodes not chosen and the edges between
    them, under the old numbers; edge attributes, targets and masks are left as they were. *)
Theorem C65_remove : forall r chosen d n l, (0 <= r)%Q -> (r <= 1)%Q -> well_formed n l d ->
  exists ks d', remove_nodes r chosen d = (Ok tt, d') /\ numbers n (fun i => ~ In i chosen) ks /\ picked ks (d_x d) (d_x d') /\
    (exists l', d_ei d' = EPairs l' /\ selects (among ks) l l') /\
    d_ea d' = d_ea d /\ d_y d' = d_y d /\ d_train d' = d_train d /\ d_val d' = d_val d /\ d_test d' = d_test d /\ d_num d' = d_num d /\ same_rest d d'.
Proof. exact remove_ok. Qed.
Print Assumptions C65_remove.
(** C65: a ratio for which more than all or fewer than no nodes would have to be removed is refused. *)
Theorem C65_ratio : forall r chosen d, let n := inject_Z (Z.of_nat (num_nodes d)) in (n + 1 <= n * r \/ n * r <= -1)%Q ->
  remove_nodes r chosen d = (Err ValueError, d).
Proof.
  intros r chosen d n H. unfold remove_nodes. cbv zeta. fold n. replace ((Qtrunc (n * r) <? 0) || (Z.of_nat (num_nodes d) <? Qtrunc (n * r))) with true; [reflexivity|]. symmetry.
  assert (N0 : (0 <= n)%Q) by (unfold n; change 0%Q with (inject_Z 0); rewrite <- Zle_Qle; lia). apply orb_true_iff. unfold Qtrunc. destruct (Qle_bool 0 (n * r)) eqn:E.
  - right. apply Z.ltb_lt. apply Qle_bool_iff in E. destruct H as [H|H]; [|lra].
    assert (X : Z.of_nat (num_nodes d) + 1 <= Qfloor (n * r)); [|lia]. rewrite <- (Qfloor_Z (Z.of_nat (num_nodes d) + 1)). apply Qfloor_resp_le. rewrite inject_Z_plus. exact H.
  - left. apply Z.ltb_lt. assert (E' : ~ (0 <= n * r)%Q) by (intros X; apply Qle_bool_iff in X; congruence). destruct H as [H|H]; [lra|].
    assert (X : Qceiling (n * r) <= -1); [|lia]. rewrite <- (Qceiling_Z (-1)). apply Qceiling_resp_le. exact H.
Qed.
Print Assumptions C65_ratio.
Example C65_case : let d := snd (remove_nodes (1 # 2) [0; 2]%nat d_ex) in d_x d = [[11]; [13]]%Q /\ d_ei d = EPairs [(3, 3)] /\ d_ea d = Some [5; 6; 7; 8; 9]%Q /\ d_y d = Some [0; 1; 2; 3].
Proof. repeat split; reflexivity. Qed.

(** C95: the one-hot roll of non-empty instruments has 128 rows and a column for every 1/fs up to
    the last end time; an entry is 1 exactly if, for one of the instruments, the last event of
    that pitch in that column is the start of a note, otherwise 0. *)
Theorem C95_roll : forall fs l, (0 <= fs)%Q -> l <> [] -> Forall good_inst l ->
  exists m w, one_hot_roll l fs = Ok m /\ List.length m = 128%nat /\ (forall r, In r m -> Z.of_nat (List.length r) = w) /\
    (forall i, In i l -> col fs (end_time i) + 1 <= w) /\ (exists i, In i l /\ col fs (end_time i) + 1 = w) /\
    forall p t, 0 <= p < 128 -> 0 <= t < w -> let v := nth (Z.to_nat t) (nth (Z.to_nat p) m []) 0 in
      (v = 1 /\ exists i, In i l /\ rings fs (ri_notes i) p t) \/ (v = 0 /\ forall i, In i l -> ~ rings fs (ri_notes i) p t).
Proof. exact roll_ok. Qed.
Print Assumptions C95_roll.
(** C95: without instruments it raises ValueError. *)
Theorem C95_none : forall fs, one_hot_roll [] fs = Err ValueError.
Proof. reflexivity. Qed.
Print Assumptions C95_none.
(** A repeated note: the end of the second first-listed note erases the start of the other. *)
Example C95_case : let i := mkRI [mkRN 60 1 2; mkRN 60 0 1; mkRN 62 0 (1 # 200)] [3%Q] in good_inst i /\
  match one_hot_roll [i] 2 with Ok m => nth 60 m [] = [1; 0; 0; 0; 0; 0; 0] /\ nth 62 m [] = [0; 0; 0; 0; 0; 0; 0] | Err _ => False end.
Proof.
  split; [|vm_compute; auto]. split; [|vm_compute; discriminate]. repeat constructor; cbn; try lia; try (vm_compute; discriminate).
Qed.

(** C96: the train/test split of a dataset puts every graph into exactly one part, floor(ratio n)
    into the first. *)
Theorem C96_split : forall A r (ds : list A) perm, (0 <= r)%Q -> (r <= 1)%Q -> Permutation perm (seq 0 (List.length ds)) ->
  exists a b, split_ds r ds perm = Ok (a, b) /\ List.length a = drops r (List.length ds) /\ Permutation (a ++ b) ds.
Proof. exact split_ok. Qed.
Print Assumptions C96_split.
(** C96: a ratio that would take more than all or fewer than no graphs is refused. *)
Theorem C96_ratio : forall A r (ds : list A) perm, let n := inject_Z (Z.of_nat (List.length ds)) in (n + 1 <= n * r \/ n * r <= -1)%Q -> split_ds r ds perm = Err ValueError.
Proof.
  intros A r ds perm n H. unfold split_ds. cbv zeta. fold n. replace ((Qtrunc (n * r) <? 0) || (Z.of_nat (List.length ds) <? Qtrunc (n * r))) with true; [reflexivity|]. symmetry.
  assert (N0 : (0 <= n)%Q) by (unfold n; change 0%Q with (inject_Z 0); rewrite <- Zle_Qle; lia). apply orb_true_iff. unfold Qtrunc. destruct (Qle_bool 0 (n * r)) eqn:E.
  - right. apply Z.ltb_lt. apply Qle_bool_iff in E. destruct H as [H|H]; [|lra].
    assert (X : Z.of_nat (List.length ds) + 1 <= Qfloor (n * r)); [|lia]. rewrite <- (Qfloor_Z (Z.of_nat (List.length ds) + 1)). apply Qfloor_resp_le. rewrite inject_Z_plus. exact H.
  - left. apply Z.ltb_lt. assert (E' : ~ (0 <= n * r)%Q) by (intros X; apply Qle_bool_iff in X; congruence). destruct H as [H|H]; [lra|].
    assert (X : Qceiling (n * r) <= -1); [|lia]. rewrite <- (Qceiling_Z (-1)). apply Qceiling_resp_le. exact H.
Qed.
Print Assumptions C96_ratio.
Example C96_case : split_ds (4 # 5) [10; 20; 30; 40; 50; 60] [3; 1; 5; 0; 2; 4]%nat = Ok ([40; 20; 60; 10], [30; 50]).
Proof. reflexivity. Qed.
