(** Property C198: saving one track with to_midi_file. *)
From Coq Require Import Sorted Permutation Lia Lqa Qabs.
From Verif Require Import PyBase L_Base M_SortedDict M_Note S_Note M_Events M_Seq S_Seq L_Seq M_Seqs L_Seqs M_Ticks M_Load M_Write S_Write S_Cut L_Write2 M_Meta M_Song S_Song L_Song L_Song2 M_Reader M_Pipe S_Pipe M_SaveSeq S_SaveSeq L_SaveSeq.
Open Scope Z_scope.

Lemma saved_ok : forall i l ns, Permutation ns l -> clear_notes l -> l <> [] -> 0 <= i_num i <= 127 -> save_midi_callback (Some i) ns 0 = Ok (saved_file i ns).
Proof.
  intros i l ns P CL N I. unfold save_midi_callback. destruct ns as [|n ns]; [apply Permutation_nil in P; congruence|]. set (k := n :: ns) in *. clearbody k. rewrite p0_new. cbn [bind].
  rewrite serialize1. rewrite (fit1 i l k) by auto. reflexivity.
Qed.
Definition sorted_notes (q : seq) : list note := py_sort (fun a b => Qltb (n_start a) (n_start b)) (q_notes q).
Lemma same_cut : forall i i' l ns x y, Permutation ns l -> cut_note (inst1 i ns) x y -> cut_note (inst1 i' l) x y.
Proof.
  intros i i' l ns x y P. assert (E : forall z, In z (map W ns) <-> In z (map W l)) by (intros z; split; apply Permutation_in; [|apply Permutation_sym]; apply Permutation_map; auto).
  assert (B : forall t, busy (inst1 i ns) t <-> busy (inst1 i' l) t).
  { intros t. unfold busy, inst1. cbn [w_notes w_bends w_ccs]. split; intros [H|[[z [Z1 Z2]]|H]]; auto; right; left; exists z; split; auto; apply E; auto. }
  assert (T : forall t, track_end (inst1 i ns) t <-> track_end (inst1 i' l) t).
  { intros t. unfold track_end. rewrite B. split; intros [H1 H2]; split; auto; intros u U; apply H2, B; auto. }
  assert (ST : forall t, stops (inst1 i ns) x t <-> stops (inst1 i' l) x t).
  { intros t. unfold stops. rewrite T. unfold inst1. cbn [w_notes]. split; intros [A [[z [Z1 Z2]]|[[z [Z1 Z2]]|H]]]; split; auto.
    - left. exists z. split; auto. apply E; auto. - right; left. exists z. split; auto. apply E; auto.
    - left. exists z. split; auto. apply E; auto. - right; left. exists z. split; auto. apply E; auto. }
  unfold cut_note. intros (A1 & A2 & A3 & A4 & A5). split; auto. split; auto. split; auto. split; [apply ST; auto|]. intros t U. apply A5, ST; auto.
Qed.
Lemma F2_cut : forall i k, (forall x, In x k -> In x (w_notes i)) -> Forall2 (cut_note i) k (map (cutn i) k).
Proof. induction k as [|x k IH]; intros H; cbn [map]; constructor; [apply cutn_spec; apply H; left; auto|apply IH; intros; apply H; right; auto]. Qed.

Lemma read_core : forall keynum q, clear_notes (q_notes q) -> q_notes q <> [] -> 0 <= i_num (q_instr q) <= 127 ->
  exists file so q2 cut m, to_midi_file q (Some save_midi_callback) = Ok file /\ read_file keynum 9 220 file = Ok so /\
  trk (so_ms so) 0 = Some q2 /\ (forall j, j <> 0 -> trk (so_ms so) j = None) /\
  i_num (q_instr q2) = i_num (q_instr q) /\ i_drum (q_instr q2) = i_drum (q_instr q) /\ q_res q2 = 220 /\
  Forall2 (cut_note (mkW ""%string 0 false (map W (q_notes q)) [] [])) (map W (q_notes q)) cut /\
  Permutation m cut /\ StronglySorted (fun a b => pn_end a <= pn_end b) m /\ Forall2 (note_at clock440) m (q_notes q2).
Proof.
  intros keynum q CL NE I. set (l := q_notes q) in *. set (ns := sorted_notes q). assert (P : Permutation ns l) by (apply Permutation_sym, py_sort_perm).
  destruct (saved_read (q_instr q) l ns P CL NE I keynum) as (so & q2 & cut & m & R & T1 & T2 & T3 & T4 & T5 & T6 & T7 & T8 & T9).
  set (i := inst1 (q_instr q) ns) in *.
  assert (F : Forall2 (cut_note i) (w_notes i) (map (cutn i) (w_notes i))) by (apply F2_cut; auto).
  assert (F' : Forall2 (cut_note (mkW ""%string 0 false (map W l) [] [])) (map W ns) (map (cutn i) (w_notes i))).
  { eapply Forall2_imp; [|exact F]. cbn. intros a b _ _ H. apply (same_cut (q_instr q) (mkI 0 ""%string%string false) l ns); auto. }
  assert (G : forall A B (R : A -> B -> Prop) a b, Forall2 R a b -> forall a', Permutation a a' -> exists b', Permutation b b' /\ Forall2 R a' b').
  { intros A B R0 a b H a' PA. assert (H' : Forall2 (fun x y => R0 y x) b a) by (clear -H; induction H; constructor; auto). destruct (Forall2_perm _ _ _ _ _ PA b H') as [b' [PB H'']]. exists b'. split; [apply Permutation_sym; auto|].
    clear -H''. induction H''; constructor; auto. }
  destruct (G _ _ _ _ _ F' (map W l) (Permutation_map W P)) as [cut' [PC' F'']].
  exists (saved_file (q_instr q) ns), so, q2, cut', m. split; [|split; [exact R|split; auto; split; auto; split; auto; split; auto; split; auto; split; [exact F''|split; [|split; auto]]]].
  - unfold to_midi_file. rewrite <- (saved_ok (q_instr q) l ns P CL NE I). reflexivity.
  - eapply Permutation_trans; [exact T7|]. eapply Permutation_trans; [exact T6|]. exact PC'.
Qed.
(** C198: a track of notes that can be told apart at 440 ticks a second is saved, and reading the file gives one
    track, of the same program and kind, with these notes: each at the ticks nearest to its times, ended by
    the start of any later one or the end of one of its pitch (C196), in the order of their ends. *)
Theorem C198_read : forall keynum q, clear_notes (q_notes q) -> q_notes q <> [] -> 0 <= i_num (q_instr q) <= 127 ->
  exists file so q2 ws cut m, to_midi_file q (Some save_midi_callback) = Ok file /\ read_file keynum 9 220 file = Ok so /\
  trk (so_ms so) 0 = Some q2 /\ (forall j, j <> 0 -> trk (so_ms so) j = None) /\
  i_num (q_instr q2) = i_num (q_instr q) /\ i_drum (q_instr q2) = i_drum (q_instr q) /\ q_res q2 = 220 /\
  Forall2 ticks_note (q_notes q) ws /\ Forall2 (cut_note (mkW ""%string 0 false ws [] [])) ws cut /\
  Permutation m cut /\ StronglySorted (fun a b => pn_end a <= pn_end b) m /\ Forall2 (note_at clock440) m (q_notes q2).
Proof.
  intros keynum q CL NE I. destruct (read_core keynum q CL NE I) as (file & so & q2 & cut & m & A1 & A2 & A3 & A4 & A5 & A6 & A7 & A8 & A9).
  exists file, so, q2, (map W (q_notes q)), cut, m. split; [exact A1|]. split; [exact A2|]. split; [exact A3|]. split; [exact A4|]. split; [exact A5|]. split; [exact A6|]. split; [exact A7|]. split; [apply W_ticks|]. split; [exact A8|exact A9].
Qed.
Print Assumptions C198_read.

Lemma tk_mono : forall a b, (a <= b)%Q -> tk a <= tk b.
Proof.
  intros a b H. destruct (Qeq_dec a b) as [E|E].
  - unfold tk. rewrite (time_to_tick_comp p0 a b E). lia.
  - assert (LT : (a < b)%Q) by (destruct (Qlt_le_dec a b); auto; exfalso; apply E; lra). destruct (Z.le_gt_cases (tk a) (tk b)) as [G|G]; auto. exfalso.
    destruct (tk_near a) as [A1 A2], (tk_near b) as [B1 B2]. specialize (A2 _ B1). specialize (B2 _ A1). rewrite !q440 in *.
    assert (K : (inject_Z (tk b) < inject_Z (tk a))%Q) by (rewrite <- Zlt_Qlt; lia).
    revert A2 B2. apply Qabs_case; intros X1; apply Qabs_case; intros X2 Y; apply Qabs_case; intros X3; apply Qabs_case; intros X4 Y'; lra.
Qed.
Lemma F2_comp : forall A B C (R : A -> B -> Prop) (U : B -> C -> Prop) a b c, Forall2 R a b -> Forall2 U b c -> Forall2 (fun x z => exists y, In x a /\ In y b /\ R x y /\ U y z) a c.
Proof.
  intros A B C R U a b c H. revert c. induction H as [|x y a b Hx H IH]; intros c K; inversion K; subst; constructor.
  - exists y. repeat (split; [left; reflexivity|]). auto.
  - eapply Forall2_imp; [|apply IH; eassumption]. cbn. intros u v _ _ (w & W1 & W2 & W3). exists w. split; [right; auto|]. split; [right; auto|]. auto.
Qed.
Lemma F2_map : forall A B (f : A -> B) l, Forall2 (fun x y => y = f x) l (map f l).
Proof. induction l; constructor; auto. Qed.
Lemma read_notes : forall keynum q, clear_notes (q_notes q) -> q_notes q <> [] -> 0 <= i_num (q_instr q) <= 127 ->
  exists file so q2 k, to_midi_file q (Some save_midi_callback) = Ok file /\ read_file keynum 9 220 file = Ok so /\ trk (so_ms so) 0 = Some q2 /\
    Permutation k (q_notes q) /\ Forall2 (fun n n2 => exists c, In n (q_notes q) /\ cut_note (inst1 (mkI 0 ""%string false) (q_notes q)) (W n) c /\ note_at clock440 c n2) k (q_notes q2).
Proof.
  intros keynum q CL NE I. destruct (read_core keynum q CL NE I) as (file & so & q2 & cut & m & A1 & A2 & A3 & _ & _ & _ & _ & A8 & A9 & _ & A10).
  pose proof (F2_comp _ _ _ _ _ _ _ _ (F2_map _ _ W (q_notes q)) A8) as F. destruct (Forall2_perm _ _ _ _ _ (Permutation_sym A9) _ F) as [k [PK FK]].
  exists file, so, q2, k. split; auto. split; auto. split; auto. split; auto. pose proof (F2_comp _ _ _ _ _ _ _ _ FK A10) as G. eapply Forall2_imp; [|exact G]. cbn. intros n n2 _ _ (c & _ & _ & (w & W1 & _ & -> & W3) & W4). exists c. auto.
Qed.
Lemma clock_le : forall a b, a <= b -> (clock440 a <= clock440 b)%Q.
Proof. intros a b H. rewrite !q440. rewrite Zle_Qle in H. lra. Qed.
Lemma clock_lt : forall a b, a < b -> (clock440 a < clock440 b)%Q.
Proof. intros a b H. rewrite !q440. rewrite Zlt_Qlt in H. lra. Qed.
Lemma w_lasts : forall q n, clear_notes (q_notes q) -> In n (q_notes q) -> tk (n_start n) < tk (n_end n).
Proof. intros q n CL N. apply (tick_facts (q_notes q) (q_notes q) (Permutation_refl _) CL n N). Qed.
(** C198: so every note is there once, with its pitch and velocity, struck within 1/880 of a second of its time,
    and ended later than that and no later than its end, up to 1/880 of a second. *)
Theorem C198_near : forall keynum q, clear_notes (q_notes q) -> q_notes q <> [] -> 0 <= i_num (q_instr q) <= 127 ->
  exists file so q2 k, to_midi_file q (Some save_midi_callback) = Ok file /\ read_file keynum 9 220 file = Ok so /\ trk (so_ms so) 0 = Some q2 /\
    Permutation k (q_notes q) /\ Forall2 (fun n n2 => n_pitch n2 = n_pitch n /\ n_velocity n2 = n_velocity n /\
      (Qabs (n_start n - n_start n2) <= 1 / 880)%Q /\ (n_start n2 < n_end n2 <= n_end n + 1 / 880)%Q) k (q_notes q2).
Proof.
  intros keynum q CL NE I. destruct (read_notes keynum q CL NE I) as (file & so & q2 & k & A1 & A2 & A3 & A4 & A5). exists file, so, q2, k. split; auto. split; auto. split; auto. split; auto.
  eapply Forall2_imp; [|exact A5]. cbn beta. intros n n2 _ _ (c & N & (C1 & C2 & C3 & C4 & C5) & (D1 & D2 & D3 & D4)). destruct (proj1 CL n N) as (_ & _ & S0 & L & _). change (1 / 440)%Q with (1 # 440)%Q in L. change (1 / 880)%Q with (1 # 880)%Q.
  split; [rewrite D1, C2; reflexivity|]. split; [rewrite D2, C1; reflexivity|]. split; [rewrite D3, C3; cbn [W pn_start]; apply near_half; [auto|apply tk_near]|].
  assert (E0 : (0 <= n_end n)%Q) by lra. pose proof (near_half _ _ E0 (tk_near _)) as H. apply Qabs_Qle_condition in H.
  assert (ST : stops (inst1 (mkI 0 ""%string false) (q_notes q)) (W n) (tk (n_end n))).
  { split; [apply (w_lasts q); auto|]. right. left. exists (W n). split; [apply in_map; auto|]. auto. }
  apply C5 in ST. pose proof (clock_le _ _ ST) as K. destruct C4 as [C4 _]. rewrite <- C3 in C4. pose proof (clock_lt _ _ C4) as K'. rewrite <- D4 in K. rewrite <- D3, <- D4 in K'. split; [exact K'|lra].
Qed.
Print Assumptions C198_near.
(** C198: if no note sounds on when a later one is struck, the ends too are kept up to 1/880 of a second. *)
Theorem C198_ends : forall keynum q, clear_notes (q_notes q) -> q_notes q <> [] -> 0 <= i_num (q_instr q) <= 127 ->
  (forall a b, In a (q_notes q) -> In b (q_notes q) -> (n_start a < n_start b)%Q -> (n_end a <= n_start b)%Q) ->
  exists file so q2 k, to_midi_file q (Some save_midi_callback) = Ok file /\ read_file keynum 9 220 file = Ok so /\ trk (so_ms so) 0 = Some q2 /\
    Permutation k (q_notes q) /\ Forall2 (fun n n2 => n_pitch n2 = n_pitch n /\ n_velocity n2 = n_velocity n /\
      (Qabs (n_start n - n_start n2) <= 1 / 880)%Q /\ (Qabs (n_end n - n_end n2) <= 1 / 880)%Q) k (q_notes q2).
Proof.
  intros keynum q CL NE I SQ. destruct (read_notes keynum q CL NE I) as (file & so & q2 & k & A1 & A2 & A3 & A4 & A5). exists file, so, q2, k. split; auto. split; auto. split; auto. split; auto.
  eapply Forall2_imp; [|exact A5]. cbn beta. intros n n2 _ _ (c & N & (C1 & C2 & C3 & C4 & C5) & (D1 & D2 & D3 & D4)). destruct (proj1 CL n N) as (_ & _ & S0 & L & _). change (1 / 440)%Q with (1 # 440)%Q in L. change (1 / 880)%Q with (1 # 880)%Q.
  split; [rewrite D1, C2; reflexivity|]. split; [rewrite D2, C1; reflexivity|]. split; [rewrite D3, C3; cbn [W pn_start]; apply near_half; [auto|apply tk_near]|].
  assert (E0 : (0 <= n_end n)%Q) by lra.
  assert (ST : stops (inst1 (mkI 0 ""%string false) (q_notes q)) (W n) (tk (n_end n))).
  { split; [apply (w_lasts q); auto|]. right. left. exists (W n). split; [apply in_map; auto|]. auto. }
  apply C5 in ST.
  assert (E : pn_end c = tk (n_end n)).
  { apply Z.le_antisymm; auto. destruct C4 as [C4 [[m [M EM]]|[[m [M [EP EM]]]|[_ B]]]].
    - rewrite EM in *. apply in_map_iff in M as [x [<- X]]. cbn [W pn_start] in *. apply tk_mono. apply SQ; auto. destruct (Qlt_le_dec (n_start n) (n_start x)) as [G|G]; auto. apply tk_mono in G. lia.
    - rewrite EM in *. apply in_map_iff in M as [x [<- X]]. cbn [W pn_start pn_end pn_pitch] in *. destruct (Z.le_gt_cases (tk (n_end n)) (tk (n_end x))) as [G|G]; auto. exfalso.
      pose proof (w_lasts q x CL X) as LX. destruct (Qlt_le_dec (n_start n) (n_start x)) as [H|H].
      + apply SQ in H; auto. apply tk_mono in H. lia.
      + destruct (Qlt_le_dec (n_start x) (n_start n)) as [H'|H'].
        * apply SQ in H'; auto. apply tk_mono in H'. lia.
        * assert (x = n) as ->; [|lia]. apply in_split in X as [l1 [l2 X]]. pose proof N as N'. rewrite X in N'. apply in_app_iff in N' as [N'|[N'|N']]; auto.
          -- apply in_split in N' as [u [v ->]]. rewrite <- app_assoc in X. cbn [app] in X. pose proof (proj2 CL u n v x l2 X (eq_sym EP)) as Y. change (1 / 440)%Q with (1 # 440)%Q in Y. assert (Z0 : (n_start n - n_start x == 0)%Q) by lra. rewrite Z0 in Y. discriminate.
          -- apply in_split in N' as [u [v ->]]. pose proof (proj2 CL l1 x u n v X EP) as Y. change (1 / 440)%Q with (1 # 440)%Q in Y. assert (Z0 : (n_start x - n_start n == 0)%Q) by lra. rewrite Z0 in Y. discriminate.
    - assert (K : busy (inst1 (mkI 0 ""%string false) (q_notes q)) (tk (n_end n))) by (right; left; exists (W n); split; [apply in_map; auto|right; reflexivity]). apply B in K. lia. }
  rewrite D4, E. apply near_half; [auto|apply tk_near].
Qed.
Print Assumptions C198_ends.
(** C198: a file is written exactly if there are notes and the program, pitches and velocities are MIDI values; else,
    or without a callback, the answer is a ValueError. *)
Theorem C198_refused : forall q,
  to_midi_file (A := list ftrack) q None = Err ValueError /\
  (q_notes q <> [] /\ 0 <= i_num (q_instr q) <= 127 /\ (forall n, In n (q_notes q) -> 0 <= n_pitch n <= 127 /\ 0 <= n_velocity n <= 127) ->
     exists file, to_midi_file q (Some save_midi_callback) = Ok file) /\
  (~ (q_notes q <> [] /\ 0 <= i_num (q_instr q) <= 127 /\ (forall n, In n (q_notes q) -> 0 <= n_pitch n <= 127 /\ 0 <= n_velocity n <= 127)) ->
     to_midi_file q (Some save_midi_callback) = Err ValueError).
Proof.
  intros q. split; [reflexivity|]. assert (P : Permutation (sorted_notes q) (q_notes q)) by (apply Permutation_sym, py_sort_perm).
  assert (E : to_midi_file q (Some save_midi_callback) = match q_notes q with [] => Err ValueError | _ => if messages_fit (inst1 (q_instr q) (sorted_notes q)) then Ok (saved_file (q_instr q) (sorted_notes q)) else Err ValueError end).
  { unfold to_midi_file. fold (sorted_notes q). unfold save_midi_callback. destruct (sorted_notes q) as [|x k] eqn:S0.
    - apply Permutation_nil in P. rewrite P. reflexivity.
    - destruct (q_notes q) as [|y k']; [apply Permutation_sym, Permutation_nil in P; discriminate|]. rewrite <- S0. rewrite p0_new. cbn [bind]. apply serialize1. }
  assert (M : messages_fit (inst1 (q_instr q) (sorted_notes q)) = true <-> 0 <= i_num (q_instr q) <= 127 /\ (forall n, In n (q_notes q) -> 0 <= n_pitch n <= 127 /\ 0 <= n_velocity n <= 127)).
  { unfold messages_fit, inst1. cbn [w_prog w_notes w_bends w_ccs forallb]. rewrite !andb_true_r, andb_true_iff, forallb_forall. unfold byte7. split; intros [A B]; split; try lia.
    - intros n N. apply (Permutation_in _ (Permutation_sym P)) in N. specialize (B (W n) (in_map W _ _ N)). cbn [W pn_pitch pn_vel] in B. lia.
    - intros x X. apply in_map_iff in X as [n [<- N]]. apply (Permutation_in _ P) in N. apply B in N. cbn [W pn_pitch pn_vel]. lia. }
  rewrite E. split.
  - intros (N & H). destruct (q_notes q); [congruence|]. apply M in H. rewrite H. eauto.
  - intros H. destruct (q_notes q) as [|y k]; [reflexivity|]. destruct (messages_fit _); [|reflexivity]. exfalso. apply H. split; [discriminate|]. apply M. reflexivity.
Qed.
Print Assumptions C198_refused.
(** C198: a callback of one's own gets the instrument, the notes by start time, those of one start in the order
    they have, and the length of the track; its result or exception is that of the call.  The track itself is
    not changed (the sorted list is a new one). *)
Theorem C198_callback : forall A q (f : option instr -> list note -> Q -> res A), exists ns,
  to_midi_file q (Some f) = f (Some (q_instr q)) ns (q_total q) /\
  Permutation ns (q_notes q) /\ StronglySorted (fun a b => (n_start a <= n_start b)%Q) ns /\
  forall t, selects (fun n => (n_start n == t)%Q) (q_notes q) (filter (fun n => Qeq_bool (n_start n) t) ns).
Proof.
  intros A q f. exists (sorted_notes q). split; [reflexivity|]. pose proof (as_note_seq_spec q) as (_ & P & ST & SE & _).
  assert (E : q_notes (snd (q_as_note_seq q)) = sorted_notes q).
  { unfold q_as_note_seq, sorted_notes. destruct (q_notes q) as [|x l] eqn:Q0; cbn [snd]; [rewrite Q0; reflexivity|]. rewrite notes_put. reflexivity. }
  rewrite E in P, ST, SE. auto.
Qed.
Print Assumptions C198_callback.
Definition sv (p : Z) (s e : Q) : note := mkN p 100 0 0 0 4 4 false s e (-1) (-1).
(** A chord that a later note cuts short. *)
Definition sv_ex : seq := q_new [sv 62 (3#2) 3; sv 60 0 2; sv 64 0 1] (mkI 40 "Violin" false) 220.
Example C198_case_ok : clear_notes (q_notes sv_ex) /\ q_notes sv_ex <> [] /\ 0 <= i_num (q_instr sv_ex) <= 127.
Proof.
  split; [|split; [discriminate|cbn; lia]]. split.
  - intros n [<-|[<-|[<-|[]]]]; (split; [unfold in_ranges; cbn; lia|]); (split; [cbn; lia|]); cbn [sv n_start n_end]; (split; [discriminate|]); (split; reflexivity).
  - intros l1 a l2 b l3 E P. exfalso. change (q_notes sv_ex) with [sv 62 (3#2) 3; sv 60 0 2; sv 64 0 1] in E.
    assert (ND : NoDup (map n_pitch [sv 62 (3#2) 3; sv 60 0 2; sv 64 0 1])).
    { cbn. repeat constructor; cbn; intuition discriminate. }
    rewrite E, map_app in ND. cbn [map] in ND. apply NoDup_remove_2 in ND. apply ND. rewrite map_app. cbn [map]. rewrite P. apply in_app_iff. right. apply in_app_iff. right. left. reflexivity.
Qed.
Example C198_case : exists file so q2, to_midi_file sv_ex (Some save_midi_callback) = Ok file /\ read_file (fun _ => Ok 0) 9 220 file = Ok so /\ trk (so_ms so) 0 = Some q2 /\
  map (fun n => (n_pitch n, Qred (n_start n), Qred (n_end n))) (q_notes q2) = [(64, 0%Q, 1%Q); (60, 0%Q, 3#2); (62, 3#2, 3%Q)].
Proof. eexists; eexists; eexists. split; [vm_compute; reflexivity|]. split; [vm_compute; reflexivity|]. split; vm_compute; reflexivity. Qed.
