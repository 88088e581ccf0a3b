(** Properties C04-C05: sorted dictionaries. *)
From Coq Require Import Sorted.
From Verif Require Import PyBase M_Interval M_SortedDict S_Interval S_Dict L_Interval L_SortedIntervalDict.

(** C04: map semantics and ascending iteration after every history. *)
Theorem sorted_dict_is_sorted_map :
  forall (K V : Type) (ltb eqb : K -> K -> bool), strict_total_order ltb eqb ->
  forall (ops : list (sd_op K V)),
  let d := sd_run K V ltb eqb sd_empty ops in
  let value k := value_after eqb (map as_write ops) k in
  (forall k, sd_get K V eqb d k = match value k with Some v => Ok v | None => Err KeyError end) /\
  StronglySorted (fun a b => ltb a b = true) (sd_keys_of d) /\
  (forall k, In k (sd_keys_of d) <-> exists v, value k = Some v) /\
  sd_len d = List.length (sd_keys_of d) /\
  (exists its, sd_items K V eqb d = Ok its /\ map fst its = sd_keys_of d /\
     sd_values K V eqb d = Ok (map snd its) /\ forall k v, In (k, v) its <-> value k = Some v) /\
  sd_reversed d = rev (sd_keys_of d).
Proof. exact sorted_dict_map_lemma. Qed.
Print Assumptions sorted_dict_is_sorted_map.

(** C04: which calls raise, and that a failed deletion changes nothing. *)
Theorem sorted_dict_errors :
  forall (K V : Type) (ltb eqb : K -> K -> bool), strict_total_order ltb eqb ->
  forall (ops : list (sd_op K V)) k v,
  let d := sd_run K V ltb eqb sd_empty ops in
  (fst (sd_set K V ltb eqb d k v) = Ok tt) /\
  (value_after eqb (map as_write ops) k = None -> sd_del K V eqb d k = (Err KeyError, d)) /\
  (value_after eqb (map as_write ops) k <> None -> fst (sd_del K V eqb d k) = Ok tt) /\
  (forall pairs : list (K * V), pairs <> [] -> sd_init pairs = Err AttributeError).
Proof. exact sorted_dict_errors_lemma. Qed.
Print Assumptions sorted_dict_errors.

(** Non-vacuity: intervals are such keys, and a history with overwrite and delete. *)
Example sorted_dict_case :
  strict_total_order i_ltb i_eqb /\
  sd_items interval Z i_eqb (sd_run interval Z i_ltb i_eqb sd_empty
     [SdSet (mkI 5 6) 1%Z; SdSet (mkI 1 9) 2%Z; SdSet (mkI 5 6) 3%Z; SdSet (mkI 0 0) 4%Z; SdDel (mkI 0 0)])
  = Ok [(mkI 1 9, 2%Z); (mkI 5 6, 3%Z)].
Proof. split; [exact i_sto|reflexivity]. Qed.

(** C05 *)
Theorem sorted_interval_dict_lookup : forall (V : Type) (ops : list (sid_op V)),
  let d := sid_run V ops in
  (forall k, sid_get V d (KInterval k) =
     match value_after i_eqb (sid_writes ops) k with
     | Some v => Ok (VOne v) | None => Err KeyError end) /\
  StronglySorted (fun a b => i_ltb a b = true) (sd_keys_of d) /\
  (forall k, In k (sd_keys_of d) <-> exists v, value_after i_eqb (sid_writes ops) k = Some v) /\
  sid_get V d KOther = Err KeyError.
Proof. exact sid_lookup_lemma. Qed.
Print Assumptions sorted_interval_dict_lookup.

Theorem sorted_interval_dict_slice : forall (V : Type) (ops : list (sid_op V)) (a b : option Z),
  exists d' its, sid_get V (sid_run V ops) (KSlice a b) = Ok (VDict d') /\
    sd_items interval V i_eqb d' = Ok its /\
    StronglySorted (fun x y => i_ltb x y = true) (map fst its) /\
    forall k v, In (k, v) its <->
      value_after i_eqb (sid_writes ops) k = Some v /\
      (exists x, in_closed k x /\ in_slice a b x).
Proof. exact sid_slice_lemma. Qed.
Print Assumptions sorted_interval_dict_slice.

Theorem sorted_interval_dict_never_deletes : forall (V : Type) (ops : list (sid_op V)) k i j,
  let d := sid_run V ops in
  sid_del_interval V d k = (Err AttributeError, d) /\
  snd (sid_del_slice V d i j) = d /\
  ((i < j)%nat -> (i < List.length (sd_keys_of d))%nat ->
     fst (sid_del_slice V d i j) = Err AttributeError) /\
  is_ok (fst (sid_pop V d k)) = false /\ snd (sid_pop V d k) = d.
Proof. exact sid_delete_lemma. Qed.
Print Assumptions sorted_interval_dict_never_deletes.

Example sorted_interval_dict_case :
  match sid_get Z (sid_run Z [SidSet (mkI 5 9) 1%Z; SidSet (mkI 0 4) 2%Z; SidDel (mkI 5 9); SidSet (mkI 20 30) 3%Z])
          (KSlice (Some 4%Z) (Some 10%Z)) with
  | Ok (VDict d) => sd_items interval Z i_eqb d = Ok [(mkI 0 4, 2%Z); (mkI 5 9, 1%Z)]
  | _ => False
  end.
Proof. reflexivity. Qed.
