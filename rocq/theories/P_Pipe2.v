(** Property theorems for the controllers of a MIDI file that was read: C194. *)
From Coq Require Import Sorted Permutation Lia Lqa.
From Verif Require Import PyBase L_Base M_SortedDict M_Note M_Events M_Seq M_Seqs S_Seq M_Ticks S_Ticks M_Load S_Load M_Meta S_Meta M_Song S_Song M_Pipe S_Pipe S_Pipe2 L_Pipe L_Pipe2 L_Pipe4.
Import M_Reader.
Open Scope Z_scope.

(** C194: in a file that was read, the track of a part whose channel shares its controllers holds, in order,
    exactly those pitch bends and control changes of the channel that come when no note of the whole file that
    is kept is still to end, with their amounts, numbers and values, at the times of the tempo map: those
    during the music are lost. *)
Theorem C194_controllers : forall keynum dc r file, 0 < r -> midi_file keynum file -> at_most 128 file ->
  exists so ks, read_file keynum dc r file = Ok so /\
  NoDup ks /\ (forall k, In k ks <-> exists a l, part file k (a :: l)) /\ StronglySorted (fun a b : ikey => snd a <= snd b) ks /\
  forall j k i t, nth_error ks j = Some k -> snd k = Z.of_nat i -> nth_error file i = Some t -> shared (snd (fst k)) (played t) ->
    exists q bs cs, trk (so_ms so) (Z.of_nat j) = Some q /\ i_num (q_instr q) = fst (fst k) /\ i_drum (q_instr q) = (snd (fst k) =? dc) /\
    selects (fun b => after_all (clock_of r file) file (clock_of r file (fst b))) (channel_bends (snd (fst k)) (played t)) bs /\
    Forall2 (bend_at (clock_of r file)) bs (q_bends q) /\
    selects (fun c => after_all (clock_of r file) file (clock_of r file (fst (fst c)))) (channel_ccs (snd (fst k)) (played t)) cs /\
    Forall2 (cc_at (clock_of r file)) cs (q_ccs q).
Proof. intros. apply read_file_ctrl; auto. Qed.
Print Assumptions C194_controllers.

(** Two instruments; a controller before the first note, one during the music, and three once it is over. *)
Definition k194 (s : string) : res Z := Err KeyError.
Definition f194 : list ftrack :=
  [[(0, FMeta (MTempo 500000)); (0, FMsg MEnd)];
   [(0, FMsg (MCC 0 7 100)); (0, FMsg (MProg 0 4)); (0, FMsg (MOn 0 60 90)); (2, FMsg (MBend 0 300)); (2, FMsg (MOff 0 60));
    (4, FMsg (MBend 0 (-5))); (0, FMsg (MCC 0 64 1)); (0, FMsg MEnd)];
   [(0, FMsg (MOn 1 62 80)); (4, FMsg (MCC 1 10 20)); (1, FMsg (MOff 1 62)); (1, FMsg (MCC 1 10 30)); (0, FMsg MEnd)]].
Example C194_case : midi_file k194 f194 /\ at_most 128 f194 /\ shared 0 (played (nth 1 f194 [])) /\ shared 1 (played (nth 2 f194 [])) /\
  exists so, read_file k194 9 4 f194 = Ok so /\
    map (fun q => (i_num (q_instr q), map b_amount (q_bends q), map (fun c => (cc_number c, cc_value c, Qred (cc_time c))) (q_ccs q))) (ms_values (so_ms so)) =
    [(4, [-5], [(64, 1, 1%Q)]); (0, [], [(10, 30, (3 # 4)%Q)])].
Proof.
  assert (G : forall A (l1 : list A) x l2 y l3 l, l = l1 ++ x :: l2 ++ y :: l3 -> exists i j, (i < j)%nat /\ nth_error l i = Some x /\ nth_error l j = Some y).
  { intros A l1 x l2 y l3 l ->. exists (List.length l1), (List.length l1 + Datatypes.S (List.length l2))%nat. split; [lia|]. split.
    - rewrite nth_error_app2 by lia. rewrite Nat.sub_diag. reflexivity.
    - rewrite nth_error_app2 by lia. replace (_ + _ - _)%nat with (Datatypes.S (List.length l2)) by lia. cbn. rewrite nth_error_app2 by lia. rewrite Nat.sub_diag. reflexivity. }
  split; [|split; [|split; [|split]]].
  - split; [discriminate|]. split; [intros H; cbn in H; repeat (destruct H as [H|H]; [discriminate|]); destruct H|]. split; [|split; [|split]].
    + intros t e T. cbn in T. repeat (destruct T as [<-|T]; [intros H; cbn in H; repeat (destruct H as [<-|H]; [cbn; unfold bits7; lia|]); destruct H|]). destruct T.
    + intros t e T. cbn in T. repeat (destruct T as [<-|T]; [intros H; cbn in H; repeat (destruct H as [<-|H]; [cbn; unfold MAX_TICK; lia|]); destruct H|]). destruct T.
    + intros t0 rest e E H. injection E as <- _. cbn in H. repeat (destruct H as [<-|H]; [cbn; try lia; auto|]). destruct H.
    + intros t T l1 l2 l3 k c n v w E V W. destruct (G _ _ _ _ _ _ _ E) as (i & j & IJ & I & J). clear E.
      repeat (destruct T as [<-|T]; [cbn in I, J;
        repeat (lazymatch type of I with nth_error [] i = _ => fail | _ => idtac end; destruct i as [|i]; cbn [nth_error] in I;
          [try discriminate; injection I as <- <- <- <-;
           repeat (lazymatch type of J with nth_error [] j = _ => fail | _ => idtac end; destruct j as [|j]; cbn [nth_error] in J; [first [lia|discriminate|injection J as <-; lia]|]);
           destruct j; discriminate|]); destruct i; discriminate|]). destruct T.
  - intros ks ND H. assert (I : incl ks [(4, 0, 1); (0, 1, 2)]).
    { intros [[pr ch] tr] K. destruct (H _ K) as [a [l (i & t & E & N & P)]]. cbn [fst snd] in *. subst tr.
      assert (A : In ((pr, ch), a) (denoted t)) by (apply L_Load2.of_inst_In; rewrite <- P; left; auto).
      destruct i as [|[|[|i]]]; cbn in N; [injection N as <-; destruct A| | |destruct i; discriminate]; injection N as <-;
      [change (denoted _) with [((4, 0), M_Load.mkP 90 60 0 4)] in A|change (denoted _) with [((0, 1), M_Load.mkP 80 62 0 5)] in A];
      cbn in A; repeat (destruct A as [A|A]; [injection A as <- <- _; cbn; auto|]); destruct A. }
    pose proof (NoDup_incl_length ND I). cbn in *. lia.
  - exists (firstn 1 (played (nth 1 f194 []))), (skipn 1 (played (nth 1 f194 []))). split; [reflexivity|]. split.
    + intros e [<-|[]] (n & v & E & _). discriminate E.
    + left. eexists. split; [left; reflexivity|]. right. eexists; eexists; reflexivity.
  - exists [], (played (nth 2 f194 [])). split; [reflexivity|]. split; [intros e []|]. right. intros e H. cbn in H. repeat (destruct H as [<-|H]; [intros [p E]; discriminate E|]). destruct H.
  - eexists. split; vm_compute; reflexivity.
Qed.
