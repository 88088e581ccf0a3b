(** Further theorems about C53 (index mapper) and C198 (the default callback). *)
From Coq Require Import Lia.
From Verif Require Import PyBase L_Base M_Note M_Events M_Seq M_Load M_Meta M_Song M_SaveSeq M_Chord S_Graph M_Dataset S_Dataset L_Dataset P_Dataset.
Open Scope Z_scope.

(** C53: an index that was not given out is refused with a KeyError; those given out are 0 .. k-1 for the k
    different hashes seen. *)
Theorem C53_unknown : forall m l i, made m l ->
  ((exists h, get_node_hash m i = Ok h) <-> 0 <= i < Z.of_nat (List.length (first_seen l))) /\
  (~ 0 <= i < Z.of_nat (List.length (first_seen l)) -> get_node_hash m i = Err KeyError).
Proof.
  intros m l i M. assert (E : (exists h, get_node_hash m i = Ok h) <-> 0 <= i < Z.of_nat (List.length (first_seen l))).
  { split.
    - intros [h H]. destruct (C53_bijection m l M h i) as [_ B]. apply B in H as [H1 H2]. assert (Z.to_nat i < List.length (first_seen l))%nat by (apply nth_error_Some; congruence). lia.
    - intros H. destruct (nth_error (first_seen l) (Z.to_nat i)) as [h|] eqn:N; [exists h; destruct (C53_bijection m l M h i) as [_ B]; apply B; split; [lia|auto]|]. apply nth_error_None in N. lia. }
  split; auto. intro N. unfold get_node_hash in *. destruct (dict_get Z.eqb i (m_i2h m)) as [h|]; auto. exfalso. apply N, E. eauto.
Qed.
Print Assumptions C53_unknown.
Example C53_unknown_case : made (merge_with m_a m_b) ([70; -5; 70] ++ [9; -5]) /\ List.length (first_seen ([70; -5; 70] ++ [9; -5])) = 3%nat /\
  map (get_node_hash (merge_with m_a m_b)) [-1; 0; 2; 3] = [Err KeyError; Ok 70; Ok 9; Err KeyError].
Proof. split; [exact (proj1 C53_case)|]. split; reflexivity. Qed.

(** C198: the default callback called by itself: no notes or no instrument is a ValueError. *)
Theorem C198_callback : forall i notes t, notes = [] \/ i = None -> save_midi_callback i notes t = Err ValueError.
Proof. intros i notes t [-> | ->]; [reflexivity|]. destruct notes; reflexivity. Qed.
Print Assumptions C198_callback.
Example C198_callback_case : forall n, save_midi_callback None [n] 1 = Err ValueError /\ save_midi_callback (Some (M_Events.mkI 0 ""%string false)) [] 1 = Err ValueError.
Proof. intro n. split; reflexivity. Qed.
