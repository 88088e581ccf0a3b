(** Properties C173-C174: the tempo of a saved object, and saving and reading again. *)
From Coq Require Import Lqa Lia Sorted Permutation.
From Verif Require Import PyBase L_Base M_SortedDict M_Note L_Note M_Events M_Seq S_Seq M_Seqs M_Ticks S_Ticks L_Ticks M_Load S_Load M_Write S_Write M_Meta S_Meta L_Meta M_Song S_Song L_Song.
From Verif Require Import M_Reader S_Reader L_Reader L_Reader3 L_Reader6 M_Pipe S_Pipe L_Pipe2 M_Tempi S_Tempi M_Convert S_Convert S_Convert2 L_Convert6 L_Convert7 L_Convert8 L_Convert9 L_Convert10 P_Convert L_Song6 P_Song P_Tempi.
Open Scope Z_scope.

(** C173: an object at one tempo becomes a piece at one tempo, but that tempo is the object's multiplied by the
    time of the tick nearest to the end E of the last note and divided by the time the piece is asked to end
    (E itself if that is earlier): it is the object's only if E lies on a tick and nothing is squeezed. *)
Theorem C173_tempo : forall fuel srt f so s a b sg, argsorts srt -> S_Reader.file_ok f -> read f = Ok so -> has_audible f ->
  so_tempos so = [s] -> (g_time s <= 0)%Q -> (0 < g_data s)%Q -> match a with Some v => (v <= 0)%Q | None => True end ->
  to_pretty_midi fuel srt so a (Some b) = Ok (Some sg) ->
  let tick := (60 / (g_data s * inject_Z (mf_res f)))%Q in
  exists k q hi t, 0 < k /\ (forall j, 0 <= j -> (Qabsb (so_total so - inject_Z k * tick) <= Qabsb (so_total so - inject_Z j * tick))%Q) /\
  (hi == Qminb b (so_total so))%Q /\ (0 < hi)%Q /\ (q == g_data s * (inject_Z k * tick / hi))%Q /\
  fst (get_tempo_changes (sg_pm sg)) = Ok [(t, q)] /\ (t == 0)%Q.
Proof.
  intros fuel srt f so s a b sg A FO RD AU ES S0 QP LA H tick. assert (Hr : 0 < mf_res f) by (apply FO). pose proof (inject_pos' _ Hr) as R0.
  destruct (one_piece fuel srt f so s a b sg A FO RD AU ES S0 QP LA H) as (raw & e & lo & hi & k & q & p0 & _ & ET & LO & LO' & LH & HI & K0 & KN & QE & PN & PR & _). fold tick in KN, QE.
  assert (HP : (0 < hi)%Q) by lra. assert (TP : (0 < tick)%Q) by (unfold tick; apply Qlt_shift_div_l; [apply Qmult_lt_0_compat; auto|lra]).
  assert (Q0 : (0 < q)%Q) by (rewrite QE; apply Qmult_lt_0_compat; auto; apply Qlt_shift_div_l; auto; rewrite Qmult_0_l; apply Qmult_lt_0_compat; auto; apply inject_pos'; auto).
  destruct (pm_new_ok (mf_res f) q Hr Q0) as (p1 & m & PN' & V & PI & RR & _). assert (p1 = p0) by congruence. subst p1.
  destruct (scratch_scales _ _ _ Hr Q0 PN) as (sc & S1 & _ & _ & S2). assert (M : m = [(0, sc)]) by (rewrite <- S1; symmetry; apply PI). subst m.
  destruct (pm_run_inv _ [PmTime 1; PmTempi] p0 V PI) as [PI' RR']. rewrite <- PR in PI', RR'.
  destruct (tempo_changes_ok [(0, sc)] [(0, sc)] (sg_pm sg) V) as (out & p2 & E3 & _ & _ & F2); auto; [|lia|].
  { intros x [<-|[]]. cbn. split; [unfold MAX_TICK; lia|]. rewrite S2. apply Qlt_shift_div_l; [apply Qmult_lt_0_compat; auto|lra]. }
  inversion F2 as [|? [t q'] ? ? [T1 T2] F3]; subst. inversion F3; subst. cbn [fst snd] in *. exists k, q', hi, t. split; auto. split; auto. split; [rewrite HI; destruct (Qminb_spec b e) as [[? ->]|[? ->]]; destruct (Qminb_spec b (so_total so)) as [[? ->]|[? ->]]; lra|]. split; auto.
  split; [rewrite T2, RR', RR, S2, <- QE; field; split; lra|]. split; [|rewrite T1; unfold T; rewrite sum_to_0; reflexivity].
  unfold get_tempo_changes. replace (M_Ticks.p_scales (sg_pm sg)) with [(0, sc)] by (symmetry; apply PI'). rewrite E3. reflexivity.
Qed.
Print Assumptions C173_tempo.

(** C174: a file with one tempo, read into an object, written with a to_end no earlier than the last note, and
    read again: the tracks without notes are gone and every program is 0, but the other tracks come in the same
    order with the same drum flags and the same notes (pitch, velocity, start and end), at the same tempo. *)
Theorem C174_save_read : forall fuel srt keynum r us file so a b name ex ow file2, argsorts srt -> 0 < r -> 0 < us ->
  midi_file keynum file -> at_most 128 file -> one_tempo us file -> knows_keys keynum ->
  read_file keynum 9 r file = Ok so -> sounding so <> [] ->
  (a = None \/ a = Some 0%Q) -> (so_total so <= b)%Q ->
  write_file fuel srt so name ex a (Some b) ow = Ok (Some file2) -> short file2 ->
  exists so2 s s2, read_file keynum 9 r file2 = Ok so2 /\ Forall2 same_notes (sounding so) (ms_values (so_ms so2)) /\
  so_tempos so = [s] /\ so_tempos so2 = [s2] /\ (g_data s2 == g_data s)%Q /\ (g_data s == 60000000 / inject_Z us)%Q.
Proof.
  intros fuel srt keynum r us file so a b name ex ow file2 A Hr Us MF AM OT KK RD NE LA TB W SH. unfold write_file in W. destruct (M_Reader.write _ _ _ _ _ _ _); [|discriminate]. cbn [bind] in W.
  destruct (to_pretty_midi fuel srt so a (Some b)) as [[sg|]|] eqn:H; cbn [bind] in W; [|discriminate|discriminate]. destruct (serialize 9 sg []) as [f2|] eqn:SE; [|discriminate]. cbn [bind] in W. injection W as ->.
  eapply (saved fuel srt keynum r us file so a b sg file2); eauto. destruct LA as [->| ->]; auto. lra.
Qed.
Print Assumptions C174_save_read.

(** Three quarters at resolution 4, one of them for the drums, and a note struck when its track ends. *)
Definition f174 : list ftrack :=
  [[(0, FMeta (MTempo 500000)); (0, FMeta (MTime 3 4)); (0, FMeta (MKey "G")); (4, FMeta (MTempo 500000)); (0, FMsg MEnd)];
   [(0, FMsg (MProg 0 4)); (0, FMsg (MOn 0 60 90)); (0, FMsg (MOn 0 64 91)); (2, FMsg (MOn 0 60 0)); (0, FMsg (MOff 0 64));
    (0, FMsg (MOn 9 36 70)); (1, FMsg (MOn 9 36 0)); (1, FMsg (MOn 0 62 80)); (4, FMsg (MOff 0 62)); (0, FMsg (MOn 1 65 80)); (0, FMsg MEnd)]].
Definition seen (so : M_Reader.song) := map (fun q => (i_num (q_instr q), i_drum (q_instr q), map (fun n => (n_pitch n, n_velocity n, Qred (n_start n), Qred (n_end n))) (q_notes q))) (ms_values (so_ms so)).
Example C174_case : midi_file k162 f174 /\ at_most 128 f174 /\ one_tempo 500000 f174 /\ knows_keys k162 /\
  exists so file2 so2, read_file k162 9 4 f174 = Ok so /\ write_file 100 stable_argsort so "x.mid" false None (Some 1%Q) false = Ok (Some file2) /\ (so_total so == 1)%Q /\ read_file k162 9 4 file2 = Ok so2 /\
    seen so = [(4, false, [(60, 90, 0%Q, (1 # 4)%Q); (64, 91, 0%Q, (1 # 4)%Q); (62, 80, (1 # 2)%Q, 1%Q)]); (0, true, [(36, 70, (1 # 4)%Q, (3 # 8)%Q)]); (0, false, [])] /\
    seen so2 = [(0, false, [(60, 90, 0%Q, (1 # 4)%Q); (64, 91, 0%Q, (1 # 4)%Q); (62, 80, (1 # 2)%Q, 1%Q)]); (0, true, [(36, 70, (1 # 4)%Q, (3 # 8)%Q)])].
Proof.
  assert (G : forall A (l1 : list A) x l2 y l3 l, l = l1 ++ x :: l2 ++ y :: l3 -> exists i j, (i < j)%nat /\ nth_error l i = Some x /\ nth_error l j = Some y).
  { intros A l1 x l2 y l3 l ->. exists (List.length l1), (List.length l1 + Datatypes.S (List.length l2))%nat. split; [lia|]. split.
    - rewrite nth_error_app2, Nat.sub_diag by lia. reflexivity.
    - rewrite nth_error_app2 by lia. replace (_ - _)%nat with (Datatypes.S (List.length l2)) by lia. cbn [nth_error]. rewrite nth_error_app2, Nat.sub_diag by lia. reflexivity. }
  split; [|split; [|split; [|split; [exact kk162|]]]].
  - split; [discriminate|]. split; [intros H; cbn in H; repeat (destruct H as [H|H]; [discriminate|]); destruct H|]. split; [|split; [|split]].
    + intros t e T. cbn in T. repeat (destruct T as [<-|T]; [intros H; cbn in H; repeat (destruct H as [<-|H]; [cbn; unfold bits7; lia|]); destruct H|]). destruct T.
    + intros t e T. cbn in T. repeat (destruct T as [<-|T]; [intros H; cbn in H; repeat (destruct H as [<-|H]; [cbn; unfold MAX_TICK; lia|]); destruct H|]). destruct T.
    + intros t0 rest e E H. injection E as <- _. cbn in H. repeat (destruct H as [<-|H]; [cbn|]); try lia; auto.
      * split; [lia|]. exists 2. split; [lia|reflexivity].
      * exists 7. split; [vm_compute; reflexivity|lia].
    + intros t T l1 l2 l3 k c n v w E V W. destruct (G _ _ _ _ _ _ _ E) as (i & j & IJ & I & J). clear E.
      repeat (destruct T as [<-|T]; [cbn in I, J;
        repeat (lazymatch type of I with nth_error [] i = _ => fail | _ => idtac end; destruct i as [|i]; cbn [nth_error] in I;
          [try discriminate; injection I as <- <- <- <-;
           repeat (lazymatch type of J with nth_error [] j = _ => fail | _ => idtac end; destruct j as [|j]; cbn [nth_error] in J; [first [lia|discriminate|injection J as <-; lia]|]);
           destruct j; discriminate|]); destruct i; discriminate|]). destruct T.
  - intros ks ND H. assert (I : incl ks [(4, 0, 1); (0, 9, 1); (0, 1, 1)]).
    { intros [[pr ch] tr] K. destruct (H _ K) as [a [l (i & t & E & N & P)]]. cbn [fst snd] in *. subst tr.
      assert (A : In ((pr, ch), a) (denoted t)) by (apply L_Load2.of_inst_In; rewrite <- P; left; auto).
      destruct i as [|[|i]]; cbn in N; [injection N as <-; destruct A| |destruct i; discriminate]. injection N as <-. change (denoted _) with
        [((4, 0), M_Load.mkP 90 60 0 2); ((4, 0), M_Load.mkP 91 64 0 2); ((0, 9), M_Load.mkP 70 36 2 3); ((4, 0), M_Load.mkP 80 62 4 8); ((0, 1), M_Load.mkP 80 65 8 8)] in A.
      cbn in A. repeat (destruct A as [A|A]; [injection A as <- <- _; cbn; auto|]). destruct A. }
    pose proof (NoDup_incl_length ND I). cbn in *. lia.
  - split; [|vm_compute; reflexivity]. intros t0 rest d v E H. injection E as <- _. cbn in H. repeat (destruct H as [H|H]; [try discriminate; injection H; auto|]). destruct H.
  - do 3 eexists. split; [vm_compute; reflexivity|]. split; [vm_compute; reflexivity|]. split; [vm_compute; reflexivity|]. split; [vm_compute; reflexivity|]. split; vm_compute; reflexivity.
Qed.
(** The last note ends at 1.3 seconds: the nearest tick is at 1.25 s, and the tempo of the piece is not 120. *)
Definition f173 : mfile := mkMF 4 [] [(0, 120)]%Q [] [mkRI 0 false "" [mkRN 90 60 0 1; mkRN 80 64 (1 # 2) (13 # 10)] [] []].
Example C173_case : S_Reader.file_ok f173 /\ has_audible f173 /\ exists so sg t q, read f173 = Ok so /\ to_pretty_midi 100 stable_argsort so None (Some 9%Q) = Ok (Some sg) /\
  map (fun s => (g_time s, g_data s)) (so_tempos so) = [(0, 120)]%Q /\ fst (get_tempo_changes (sg_pm sg)) = Ok [(t, q)] /\ (q == 1500 # 13)%Q.
Proof.
  split; [|split].
  - unfold S_Reader.file_ok, inst_ok, note_ok; cbn [f173 mf_res mf_keys mf_tempos mf_times mf_insts].
    repeat match goal with
    | |- _ /\ _ => split
    | |- Forall _ [] => constructor
    | |- Forall _ (_ :: _) => constructor
    | |- Forall _ _ => progress cbn [ri_notes ri_bends ri_ccs]
    end; cbn; try lia; try lra; try (unfold Qlt, Qle; cbn; lia).
  - do 2 eexists. split; [left; reflexivity|]. split; [left; reflexivity|]. intro H. vm_compute in H. apply H. reflexivity.
  - do 4 eexists. split; [vm_compute; reflexivity|]. split; [vm_compute; reflexivity|]. split; [vm_compute; reflexivity|]. split; vm_compute; reflexivity.
Qed.
