(** Properties C52-C54 and C110-C114: datasets of MIDI graphs.
    [split_masks t v n idx] are the three masks of a graph with [n] nodes for the ratios [t], [v]
    and the permutation [idx]; [process s n1 n2 ins k] is MidiDataset.process on the processed
    directory [k] with the two file names [n1], [n2], giving the content loaded and the list of
    the states the directory goes through; [construct] is making a dataset.  [s] holds the options,
    the raw files and the random draws; [s_conv] is the conversion of a networkx graph to PyG,
    None meaning that it succeeds; [real_conv] is what it does at this commit. *)
From Coq Require Import QArith Qround Permutation.
From Verif Require Import PyBase M_Note M_Events M_Seq S_Seq M_Chord M_Graph S_Graph L_Graph4 M_Dataset S_Dataset L_Dataset L_Dataset2 L_Dataset3 P_Graph.
Open Scope Z_scope.

(** C52. *)
Theorem C52_masks : forall t v n idx, (0 <= t)%Q -> (0 <= v)%Q -> (t + v <= 1)%Q -> Permutation (List.seq 0 n) idx ->
  let m := split_masks t v n idx in
  List.length (k_train m) = n /\ List.length (k_val m) = n /\ List.length (k_test m) = n /\
  (forall j, (j < n)%nat -> exactly_one (marked (k_train m) j) (marked (k_val m) j) (marked (k_test m) j)) /\
  Z.of_nat (how_many (k_train m)) = Qfloor (t * inject_Z (Z.of_nat n)) /\
  Z.of_nat (how_many (k_val m)) = Qfloor (v * inject_Z (Z.of_nat n)) /\
  (how_many (k_train m) + how_many (k_val m) + how_many (k_test m) = n)%nat.
Proof. exact split_ok. Qed.
Print Assumptions C52_masks.
(** C52: whatever the two sizes come out as (rounding included), the masks are a partition. *)
Theorem C52_any_sizes : forall n a b idx, Permutation (List.seq 0 n) idx -> let m := masks_of n a b idx in
  List.length (k_train m) = n /\ List.length (k_val m) = n /\ List.length (k_test m) = n /\
  (forall j, (j < n)%nat -> exactly_one (marked (k_train m) j) (marked (k_val m) j) (marked (k_test m) j)) /\
  ((a + b <= n)%nat -> how_many (k_train m) = a /\ how_many (k_val m) = b /\ how_many (k_test m) = (n - a - b)%nat).
Proof. exact masks_partition. Qed.
Print Assumptions C52_any_sizes.
(** C52: the constructor accepts exactly these ratios, feature sizes and bucket counts. *)
Theorem C52_arguments : forall t v size b, check_args t v size b = Ok tt <->
  (0 <= t)%Q /\ (0 <= v)%Q /\ (t + v <= 1)%Q /\ (forall k, size = Some k -> 1 <= k <= 128) /\ (forall k, b = Some k -> 1 <= k).
Proof. exact check_iff. Qed.
Print Assumptions C52_arguments.
Example C52_case : split_masks (1 # 2) (1 # 4) 5 [3; 0; 4; 1; 2]%nat =
  mkMasks [true; false; false; true; false] [false; false; false; false; true] [false; true; true; false; false] /\ check_args (1 # 2) (1 # 4) (Some 128) None = Ok tt /\ check_args (3 # 4) (1 # 2) None None = Err ValueError.
Proof. repeat split. Qed.

(** C53. *)
Theorem C53_bijection : forall m l, made m l -> forall h i,
  (get_index m h = Ok i <-> 0 <= i /\ nth_error (first_seen l) (Z.to_nat i) = Some h) /\
  (get_node_hash m i = Ok h <-> 0 <= i /\ nth_error (first_seen l) (Z.to_nat i) = Some h).
Proof. exact mapper_bijection. Qed.
Print Assumptions C53_bijection.
Theorem C53_total : forall m l h, made m l -> ((exists i, get_index m h = Ok i) <-> In h l) /\ (~ In h l -> get_index m h = Err KeyError).
Proof. exact mapper_total. Qed.
Print Assumptions C53_total.
Theorem C53_stable : forall m l m' l' h i, made m l -> made m' l' ->
  (get_index m h = Ok i -> forall x, get_index (add_node_hash m x) h = Ok i) /\ (get_index m h = Ok i -> get_index (merge_with m m') h = Ok i).
Proof. exact mapper_stable. Qed.
Print Assumptions C53_stable.
Definition m_a : mapper := add_node_hash (add_node_hash (add_node_hash m_new 70) (-5)) 70.
Definition m_b : mapper := add_node_hash (add_node_hash m_new 9) (-5).
Example C53_case : made (merge_with m_a m_b) ([70; -5; 70] ++ [9; -5]) /\ first_seen ([70; -5; 70] ++ [9; -5]) = [70; -5; 9] /\
  map (get_index (merge_with m_a m_b)) [70; -5; 9; 8] = [Ok 0; Ok 1; Ok 2; Err KeyError] /\ get_node_hash (merge_with m_a m_b) 2 = Ok 9.
Proof.
  split; [|repeat split]. apply made_merge.
  - apply (made_add _ [70; -5] 70). apply (made_add _ [70] (-5)). apply (made_add _ [] 70). constructor.
  - apply (made_add _ [9] (-5)). apply (made_add _ [] 9). constructor.
Qed.

(** A dataset of two readable files and an unreadable one, one graph filtered out, one kept. *)
Definition st_ex : setup := mkSetup e_ex (fun _ => None) (fun p => if String.eqb p "a.mid" then Ok [s_ex; s_two] else if String.eqb p "b.mid" then Ok [s_two] else Err KeyError)
  (fun k n => List.seq 0 n) ["a.mid"; "x.mid"; "b.mid"]%string cf (1 # 3) (1 # 3) true false false (Some (fun p => Nat.leb 3 (List.length (nodes_of (p_graph p))))) None.
Definition fs (q : Q) : string := if Qeq_bool q (1 # 2) then "0.5" else "1.5".
Definition n_i : string := name_instrument fs true (Some 3) (1 # 2).
Definition n_e : string := name_entire fs true (Some 3) (1 # 2).

(** C54. *)
Theorem C54_same : forall s n1 n2 ins k c ks, n1 <> n2 -> processed_file_exists k n1 n2 = false -> process s n1 n2 ins k = (Ok c, ks) ->
  exists c1 c2, dict_get String.eqb n1 (last ks k) = Some c1 /\ dict_get String.eqb n2 (last ks k) = Some c2 /\
    f_graphs c1 = f_graphs c2 /\ f_graphs c1 <> [] /\ c = (if ins then c1 else c2) /\
    (forall h i, dict_get Z.eqb h (f_h2i c1) = Some i -> dict_get Z.eqb h (f_h2i c2) = Some i) /\
    (forall n, n <> n1 -> n <> n2 -> dict_get String.eqb n (last ks k) = dict_get String.eqb n k).
Proof. exact process_same. Qed.
Print Assumptions C54_same.
Example C54_case : match process st_ex n_i n_e false [] with
  | (Ok c, ks) => map (fun i => nodes_of (p_graph (i_pyg i))) (f_graphs c) = [[2 ^ 60 + 2 ^ 64; 2 ^ 67; 2 ^ 69]; [2 ^ 50; 2 ^ 52; 2 ^ 54]] /\ List.length ks = 3%nat
  | _ => False end.
Proof. vm_compute. repeat split. Qed.

(** C110. *)
Theorem C110_converts : forall attrs edges weights v, convert attrs edges weights = Ok v <->
  attrs <> [] /\ weights <> [] /\ Forall2 (fun a q => a = VFloat q \/ exists z, a = VInt z /\ q = inject_Z z) attrs (v_x v) /\ v_edges v = edges /\ v_weights v = weights.
Proof. exact convert_iff. Qed.
Print Assumptions C110_converts.
(** C110: no graph of the builder is converted; one with nodes made by build_sequence fails with
    AttributeError. *)
Theorem C110_never : forall g v, from_midi_networkx g <> Ok v.
Proof. exact conv_never. Qed.
Print Assumptions C110_never.
Theorem C110_built : forall e b s c g b', env_ok e -> build_sequence e b s c None = (Ok g, b') -> g_nodes g <> [] -> from_midi_networkx g = Err AttributeError.
Proof. exact built_conv. Qed.
Print Assumptions C110_built.
Example C110_case : convert [VFloat (1 # 2); VInt 3] [(0, 1)]%nat [2] = Ok (mkV [1 # 2; 3 # 1] [(0, 1)]%nat [2]) /\
  match fst (build_sequence e_ex b_new s_ex cf None) with Ok g => from_midi_networkx g = Err AttributeError /\ g_nodes g <> [] | _ => False end.
Proof. vm_compute. repeat split. discriminate. Qed.

(** C111. *)
Theorem C111_contents : forall s n1 n2 ins k c ks, n1 <> n2 -> processed_file_exists k n1 n2 = false -> process s n1 n2 ins k = (Ok c, ks) ->
  env_ok (s_env s) -> s_sanity s = false -> (forall g, s_conv s g <> Some KeyError) ->
  (exists ps kept, file_graphs s (f_h2i c) (s_paths s) ps /\ selects (passes s) ps kept /\ Forall2 (stored_as s) kept (f_graphs c) /\ kept <> []) /\
  exists hs, NoDup hs /\ map fst (f_h2n c) = hs /\
    (forall h i, dict_get Z.eqb h (f_h2i c) = Some i <-> 1 <= i /\ nth_error hs (Z.to_nat (i - 1)) = Some h) /\
    (forall h i, dict_get Z.eqb i (f_i2h c) = Some h <-> 1 <= i /\ nth_error hs (Z.to_nat (i - 1)) = Some h).
Proof. exact process_contents. Qed.
Print Assumptions C111_contents.
Example C111_case : match fst (process st_ex n_i n_e true []) with
  | Ok c => map (fun i => (p_y (i_pyg i), i_masks i)) (f_graphs c) =
      [(Some [1; 2; 3], Some (mkMasks [true; false; false] [false; true; false] [false; false; true])); (Some [4; 5; 6], Some (mkMasks [true; false; false] [false; true; false] [false; false; true]))] /\ map fst (f_h2n c) = [2 ^ 60 + 2 ^ 64; 2 ^ 67; 2 ^ 69; 2 ^ 50; 2 ^ 52; 2 ^ 54]
  | _ => False end.
Proof. vm_compute. repeat split. Qed.

(** C112. *)
Theorem C112_crash : forall s n1 n2 (ins : bool) k k', n1 <> n2 -> exists_file k n1 = false -> exists_file k n2 = false -> In k' (snd (process s n1 n2 ins k)) ->
  fst (process s n1 n2 ins k') = fst (process s n1 n2 ins k) /\
  (forall n, dict_get String.eqb n (last (snd (process s n1 n2 ins k')) k') = dict_get String.eqb n (last (snd (process s n1 n2 ins k)) k)) /\
  (processed_file_exists k' n1 n2 = true -> exists c1 c2, dict_get String.eqb n1 k' = Some c1 /\ dict_get String.eqb n2 k' = Some c2 /\ f_graphs c1 = f_graphs c2) /\
  (forall n, n <> n1 -> n <> n2 -> dict_get String.eqb n k' = dict_get String.eqb n k).
Proof. exact crash_safe. Qed.
Print Assumptions C112_crash.
Example C112_case : n_i <> n_e /\ map (fun k => (exists_file k n_i, exists_file k n_e)) (snd (process st_ex n_i n_e true [])) = [(false, false); (true, false); (true, true)].
Proof. vm_compute. split; [discriminate|reflexivity]. Qed.

(** C113. *)
Theorem C113_real : forall s n1 n2 ins k, s_conv s = real_conv -> processed_file_exists k n1 n2 = false -> exists x, process s n1 n2 ins k = (Err x, [k]).
Proof. exact process_real. Qed.
Print Assumptions C113_real.
Theorem C113_sanity : forall s n1 n2 ins k, s_sanity s = true -> processed_file_exists k n1 n2 = false -> exists x, process s n1 n2 ins k = (Err x, [k]).
Proof. exact process_sanity. Qed.
Print Assumptions C113_sanity.
Definition st_real : setup := mkSetup e_ex real_conv (fun p => Ok [s_ex]) (fun k n => List.seq 0 n) ["a.mid"]%string cf (1 # 3) (1 # 3) true false false None None.
Definition st_sane : setup := mkSetup e_ex (fun _ => None) (fun p => Ok [s_ex]) (fun k n => List.seq 0 n) ["a.mid"]%string cf (1 # 3) (1 # 3) true false true None None.
(** C113: a raw file that is missing makes the first pass raise, before anything is written, although
    the second pass would skip it; both skip a file whose reading raises KeyError. *)
Theorem C113_missing : forall s n1 n2 ins k p, In p (s_paths s) -> s_read s p = Err FileNotFoundError -> processed_file_exists k n1 n2 = false ->
  exists x, process s n1 n2 ins k = (Err x, [k]).
Proof.
  intros s n1 n2 ins k p I R P. unfold process. rewrite P.
  assert (X : forall l d, In p l -> exists x d', per_instrument s d l = (Err x, d')).
  { induction l as [|q l IH]; intros d J; [destruct J|]. cbn [per_instrument]. destruct J as [->|J].
    - unfold instrument_file. rewrite R. do 2 eexists. reflexivity.
    - destruct (instrument_file s d q) as [[u|[]] d1]; eauto. }
  destruct (X (s_paths s) (mkD b_new 0 []) I) as [x [d' E]]. rewrite E. eauto.
Qed.
Print Assumptions C113_missing.
Theorem C113_skipped : forall s p l1 l2 d,
  (s_read s p = Err KeyError -> per_instrument s d (l1 ++ p :: l2) = per_instrument s d (l1 ++ l2)) /\
  (s_read s p = Err KeyError \/ s_read s p = Err FileNotFoundError -> entire s d (l1 ++ p :: l2) = entire s d (l1 ++ l2)).
Proof.
  intros s p l1 l2. induction l1 as [|q l1 IH]; intros d; cbn [app per_instrument entire].
  - unfold instrument_file, entire_file. split; [intros ->; reflexivity|intros [->| ->]; reflexivity].
  - split; intros H.
    + destruct (instrument_file s d q) as [[u|[]] d1]; try reflexivity; apply IH; exact H.
    + destruct (entire_file s d q) as [[u|[]] d1]; try reflexivity; apply IH; exact H.
Qed.
Print Assumptions C113_skipped.
Example C113_case : process st_real n_i n_e true [] = (Err AttributeError, [[]]) /\ process st_sane n_i n_e true [] = (Err AttributeError, [[]]).
Proof. vm_compute. split; reflexivity. Qed.

(** C114. *)
Theorem C114_names : forall fstr v s t v' s' t', (forall a b, fstr a = fstr b <-> (a == b)%Q) ->
  (name_instrument fstr v s t = name_instrument fstr v' s' t' <-> v = v' /\ s = s' /\ (t == t')%Q) /\ (name_entire fstr v s t = name_entire fstr v' s' t' <-> v = v' /\ s = s' /\ (t == t')%Q).
Proof. exact names_iff. Qed.
Print Assumptions C114_names.
Theorem C114_distinct : forall fstr v s t v' s' t', name_instrument fstr v s t <> name_entire fstr v' s' t'.
Proof. exact names_distinct. Qed.
Print Assumptions C114_distinct.
(** C114: a dataset is loaded whenever both files are there, whatever the raw files and the other
    options ([s'] is any other setup); otherwise it is made afresh. *)
Theorem C114_cached : forall s s' n1 n2 ins k, processed_file_exists k n1 n2 = true -> construct s n1 n2 ins k = construct s' n1 n2 ins k /\ snd (construct s n1 n2 ins k) = [k] /\
  exists c, dict_get String.eqb (if ins then n1 else n2) k = Some c /\ fst (construct s n1 n2 ins k) = Ok c.
Proof. exact construct_cached. Qed.
Print Assumptions C114_cached.
Theorem C114_fresh : forall s n1 n2 ins k, n1 <> n2 -> processed_file_exists k n1 n2 = false -> construct s n1 n2 ins k = process s n1 n2 ins k.
Proof. exact construct_fresh. Qed.
Print Assumptions C114_fresh.
Example C114_case : n_i = "per_instrument_vel_True_feature_size_3_tolerance_0.5.pt"%string /\ n_e = "data_vel_True_feature_size_3_tolerance_0.5.pt"%string /\
  (let k := last (snd (process st_ex n_i n_e true [])) [] in processed_file_exists k n_i n_e = true /\ construct st_real n_i n_e false k = construct st_ex n_i n_e false k).
Proof. vm_compute. repeat split. Qed.
