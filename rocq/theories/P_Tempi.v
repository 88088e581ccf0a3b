(** Properties C129-C131: onsets, tempo estimates, the first beat. *)
From Coq Require Import Sorted Permutation Lqa.
From Verif Require Import PyBase L_Base M_Beats S_Beats M_Tempi S_Tempi S_BeatStart L_Tempi L_Tempi2 L_Tempi3.
Open Scope Q_scope.

(** A stable argsort, to run the examples; it meets [argsorts]. *)
Definition stable_argsort (l : list Q) : list nat :=
  py_sort (fun i j => Qltb (nth i l 0) (nth j l 0)) (seq 0 (List.length l)).
Example argsorts_case : argsorts stable_argsort.
Proof.
  intro l. split; [apply Permutation_sym, py_sort_perm|].
  assert (S : StronglySorted (fun i j => Qltb (nth j l 0) (nth i l 0) = false) (stable_argsort l)).
  { apply (py_sort_sorted (fun i j => Qltb (nth i l 0) (nth j l 0))); intros;
    repeat match goal with H : Qltb _ _ = true |- _ => apply Qltb_lt in H | H : Qltb _ _ = false |- _ => apply Qltb_ge in H end; apply Qltb_ge; lra. }
  induction S; constructor; auto. eapply Forall_impl; [|eassumption]. intros b K. apply Qltb_ge in K. auto.
Qed.

(** C129: get_onsets returns every note start, in order. *)
Theorem C129_onsets : forall insts, Permutation (get_onsets insts) (List.concat insts) /\ StronglySorted Qle (get_onsets insts).
Proof. exact onsets_spec. Qed.
Print Assumptions C129_onsets.
(** C129: the estimates are tempi in (30, 300], their probabilities positive, descending, with sum 1;
    there are none exactly when no gap between successive onsets is usable. *)
Theorem C129_tempi : forall srt onsets, argsorts srt -> forall t p, estimate_tempi srt onsets = (t, p) ->
  List.length t = List.length p /\ (forall x, In x t -> 30 < x <= 300) /\ (forall x, In x p -> 0 < x <= 1) /\
  StronglySorted (fun a b => b <= a) p /\ (t <> [] -> total p == 1) /\
  (t = [] <-> forall g, In g (gaps onsets) -> ~ rhythmic g).
Proof. exact tempi_facts. Qed.
Print Assumptions C129_tempi.
(** C129: the expected beat length is the mean of the usable gaps, each doubled into range. *)
Theorem C129_mean : forall srt onsets, argsorts srt -> forall t p, estimate_tempi srt onsets = (t, p) ->
  exists l, Forall2 folded (filter (fun g => Qltb (1 # 20) g && Qltb g 2) (gaps onsets)) l /\
  total (map (fun c => snd c * (60 / fst c)) (combine t p)) * inject_Z (Z.of_nat (List.length l)) == total l.
Proof.
  intros srt onsets HS t p H. exists (map (fold_ioi 3) (usable (M_NoteExtra.np_diff onsets))). split; [|apply (tempi_mean srt onsets HS t p H)].
  rewrite gaps_diff. unfold usable. induction (gaps onsets) as [|g l IH]; cbn [filter map]; [constructor|].
  destruct (Qltb (1 # 20) g) eqn:E1; cbn [andb filter]; [|exact IH]. destruct (Qltb g 2) eqn:E2; [|exact IH].
  cbn [map]. constructor; [|exact IH]. apply fold3. apply Qltb_lt in E1. apply Qltb_lt in E2. split; assumption.
Qed.
Print Assumptions C129_mean.
(** C129: a steady performance gives exactly its tempo. *)
Theorem C129_steady : forall srt onsets g, argsorts srt -> rhythmic g -> gaps onsets <> [] -> (forall d, In d (gaps onsets) -> d == g) ->
  exists t p, estimate_tempi srt onsets = ([t], [p]) /\ p == 1 /\ folded g (60 / t).
Proof. exact steady. Qed.
Print Assumptions C129_steady.
Example C129_case : exists t p, estimate_tempi stable_argsort [0; 1 # 2; 1] = ([t], [p]) /\ t == 120 /\ p == 1 /\ rhythmic (1 # 2).
Proof. do 2 eexists. split; [vm_compute; reflexivity|]. vm_compute. auto. Qed.
(** C129: the update goes to the smallest cluster, so the best estimate can be a tempo no gap has: gaps
    of 0.25 s, 1 s and 1 s (240 and 60 bpm) are reported as 96 bpm with probability 2/3. *)
Example C129_wrong_cluster : exists t1 t2 p1 p2, estimate_tempi stable_argsort [0; 1 # 4; 5 # 4; 9 # 4] = ([t1; t2], [p1; p2]) /\
  t1 == 96 /\ t2 == 60 /\ p1 == 2 # 3 /\ p2 == 1 # 3.
Proof. do 4 eexists. split; [vm_compute; reflexivity|]. vm_compute. auto. Qed.

(** C130: estimate_tempo. *)
Theorem C130_tempo : forall srt onsets, argsorts srt ->
  (estimate_tempo srt onsets = Err ValueError <-> forall g, In g (gaps onsets) -> ~ rhythmic g) /\
  (forall e, estimate_tempo srt onsets = Err e -> e = ValueError) /\
  (forall t, estimate_tempo srt onsets = Ok t -> 30 < t <= 300 /\
     exists ts p ps, estimate_tempi srt onsets = (t :: ts, p :: ps) /\ forall p', In p' ps -> p' <= p).
Proof. exact tempo_spec. Qed.
Print Assumptions C130_tempo.
Example C130_case : estimate_tempo stable_argsort [0; 3; 6] = Err ValueError /\ is_ok (estimate_tempo stable_argsort [0; 1; 4]) = true.
Proof. vm_compute. auto. Qed.

(** C131: estimate_beat_start needs a note. *)
Theorem C131_no_notes : forall fuel m sigs others cand tol, estimate_beat_start fuel m sigs others [] cand tol = Err ValueError.
Proof. reflexivity. Qed.
Print Assumptions C131_no_notes.
(** C131: it returns the candidate onset whose beats are the loudest, the earliest such. *)
Theorem C131_beat_start : forall m sigs others notes cand tol, tempo_map m -> meters sigs -> clear_of_tempo m sigs ->
  notes <> [] -> (forall a, In a notes -> 0 <= bn_start a < bn_end a /\ In (bn_end a) others) -> (0 <= cand)%Z -> 0 < tol <= 1 ->
  let cands := firstn (Z.to_nat (cand + 1)) (fresh (sort_q (map bn_start notes))) in
  exists t l, (exists N, forall fuel, (N <= fuel)%nat -> estimate_beat_start fuel m sigs others notes cand tol = Ok (Some t)) /\
    In t cands /\ beats_are m sigs others t l /\
    (forall s ls, In s cands -> beats_are m sigs others s ls -> loudness tol notes ls <= loudness tol notes l) /\
    (forall s ls, In s cands -> s < t -> beats_are m sigs others s ls -> loudness tol notes ls < loudness tol notes l).
Proof. exact beat_start_spec. Qed.
Print Assumptions C131_beat_start.
Example C131_case :
  let notes := [mkBN (1 # 4) (1 # 2) 20; mkBN 1 (3 # 2) 90; mkBN (3 # 2) 2 90] in
  estimate_beat_start 20 [(0, 120)] [] (map bn_end notes) notes 10 (25 # 1000) = Ok (Some 1) /\
  tempo_map [(0, 120)] /\ fresh (sort_q (map bn_start notes)) = [1 # 4; 1; 3 # 2].
Proof.
  split; [vm_compute; reflexivity|]. split; [|vm_compute; reflexivity].
  split; [discriminate|]. split; [repeat constructor|]. intros c [<-|[]]. reflexivity.
Qed.
