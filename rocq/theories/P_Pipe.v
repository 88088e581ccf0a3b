(** Property theorems for reading MIDI files: C167-C169. *)
From Coq Require Import Sorted Permutation Lia Lqa.
From Verif Require Import PyBase L_Base M_SortedDict M_Note M_Events M_Seq M_Seqs S_Seq M_Ticks S_Ticks M_Load S_Load M_Meta S_Meta M_Song S_Song M_Pipe S_Pipe L_Pipe L_Pipe2 L_Pipe3.
From Verif Require Import M_Chord M_Graph S_Graph.
From Verif Require P_Graph.
Import M_Reader.
Open Scope Z_scope.

(** C167: reading a file with at most 128 playing instruments always succeeds.  There is one track for each
    combination of track, channel and program that plays a note, ordered by the tracks of the file, and no
    other; it holds the notes that the file denotes for it, in the order of their ends, except those that last
    no more than a billionth of their end time, at the times of the tempo map. *)
Theorem C167_read : forall keynum dc r file, 0 < r -> midi_file keynum file -> at_most 128 file ->
  exists so ks, read_file keynum dc r file = Ok so /\
  NoDup ks /\ (forall k, In k ks <-> exists a l, part file k (a :: l)) /\ StronglySorted (fun a b : ikey => snd a <= snd b) ks /\
  (forall j, ~ 0 <= j < Z.of_nat (List.length ks) -> trk (so_ms so) j = None) /\
  forall j k, nth_error ks j = Some k -> exists q l0 l m, trk (so_ms so) (Z.of_nat j) = Some q /\
    i_num (q_instr q) = fst (fst k) /\ i_drum (q_instr q) = (snd (fst k) =? dc) /\ q_res q = r /\
    part file k l0 /\ Permutation l l0 /\ StronglySorted (fun a b => pn_end a <= pn_end b) l /\
    selects (lasting (clock_of r file)) l m /\ Forall2 (note_at (clock_of r file)) m (q_notes q) /\
    Forall (fun n => n_program n = fst (fst k) /\ n_drum n = (snd (fst k) =? dc)) (q_notes q).
Proof. intros. apply read_file_spec; auto. Qed.
Print Assumptions C167_read.
(** C168: a note of d ticks that ends at tick e is kept if e hi < 10^9 d lo, where the tempo stays between lo
    and hi; a note of no ticks is lost.  So a file with one tempo loses exactly the notes of no ticks. *)
Theorem C168_kept : forall keynum r file lo hi k l n, 0 < r -> midi_file keynum file -> 0 < lo -> tempo_within lo hi file ->
  part file k l -> In n l ->
  (pn_end n * hi < 1000000000 * (pn_end n - pn_start n) * lo -> lasting (clock_of r file) n) /\
  (pn_start n = pn_end n -> ~ lasting (clock_of r file) n) /\
  (lo = hi -> (lasting (clock_of r file) n <-> pn_start n < pn_end n)).
Proof.
  intros keynum r file lo hi k l n Hr MF L0 W (i & t & K & T & ->) N. destruct (note_facts keynum file MF t i _ _ n T N) as (_ & _ & _ & _ & S0).
  pose proof (lasting_ticks r file lo hi n Hr (proj1 MF) L0 W S0) as [A B]. split; auto. split; auto. intros <-. split.
  - intros L. destruct (Z.eq_dec (pn_start n) (pn_end n)); [exfalso; apply B; auto|lia].
  - intros L. apply A. assert (E : pn_end n < 1000000000).
    { apply (short_end keynum file MF t i _ _ n T N). }
    nia.
Qed.
Print Assumptions C168_kept.
(** C169: a graph can be built from every track that was read (with one-hot features, if key 127 is never
    struck); it is the graph of the walk through the chords of the track, whose pitches are, unless single
    notes are filtered, exactly those of the notes of the file that are kept; a drum track gives no chord. *)
Theorem C169_graph : forall e b keynum dc r file so c, env_ok e -> valid_config c -> 0 < r -> midi_file keynum file -> at_most 128 file ->
  (c_type c = OneHotAttr -> forall t ev ch v, In t file -> In ev t -> snd ev = FMsg (MOn ch 127 v) -> v <= 0) ->
  read_file keynum dc r file = Ok so -> forall j q, trk (so_ms so) j = Some q ->
  exists k l0 g b' ws, part file k l0 /\ i_num (q_instr q) = fst (fst k) /\ i_drum (q_instr q) = (snd (fst k) =? dc) /\
    build_sequence e b q c None = (Ok g, b') /\ chords_of e q c ws /\ graph_of (map (e_shash e) ws) g /\
    (snd (fst k) = dc -> ws = []) /\
    (snd (fst k) <> dc -> c_filter c = false -> forall p, In p (List.concat ws) <-> exists a, In a l0 /\ lasting (clock_of r file) a /\ pn_pitch a = p).
Proof. exact graph_of_file. Qed.
Print Assumptions C169_graph.
(** C169: and the builder accepts the whole object, per instrument or not. *)
Theorem C169_all : forall e conv b keynum dc r file so c per, env_ok e -> valid_config c -> (forall g, conv g = None) -> 0 < r -> midi_file keynum file -> at_most 128 file ->
  (c_type c = OneHotAttr -> forall t ev ch v, In t file -> In ev t -> snd ev = FMsg (MOn ch 127 v) -> v <= 0) ->
  read_file keynum dc r file = Ok so -> exists b', build e conv b (ms_values (so_ms so)) c per = (Ok tt, b').
Proof. exact all_built. Qed.
Print Assumptions C169_all.

(** A file: a bar at 120 bpm, then 60 bpm; a piano with a chord and a note of no ticks, and drums. *)
Definition k167 (s : string) : res Z := if String.eqb s "G" then Ok 7 else Err KeyError.
Definition f167 : list ftrack :=
  [[(0, FMeta (MTempo 500000)); (0, FMeta (MTime 3 4)); (0, FMeta (MKey "G")); (4, FMeta (MTempo 1000000)); (0, FMsg MEnd)];
   [(0, FMsg (MName "Piano")); (0, FMsg (MProg 0 4)); (0, FMsg (MOn 0 60 90)); (0, FMsg (MOn 0 64 91)); (2, FMsg (MOn 0 60 0)); (0, FMsg (MOff 0 64));
    (0, FMsg (MOn 9 36 70)); (1, FMsg (MOn 9 36 0)); (1, FMsg (MOn 0 62 80)); (4, FMsg (MOff 0 62)); (0, FMsg (MOn 0 65 80)); (0, FMsg MEnd)]].
Example C167_case : midi_file k167 f167 /\ at_most 128 f167 /\ denoted (nth 1 f167 []) =
    [((4, 0), M_Load.mkP 90 60 0 2); ((4, 0), M_Load.mkP 91 64 0 2); ((0, 9), M_Load.mkP 70 36 2 3); ((4, 0), M_Load.mkP 80 62 4 8); ((4, 0), M_Load.mkP 80 65 8 8)] /\
  exists so, read_file k167 9 4 f167 = Ok so /\
    map (fun q => (i_num (q_instr q), i_drum (q_instr q), map (fun n => (n_pitch n, n_velocity n, Qred (n_start n), Qred (n_end n))) (q_notes q))) (ms_values (so_ms so)) =
    [(4, false, [(60, 90, 0%Q, (1 # 4)%Q); (64, 91, 0%Q, (1 # 4)%Q); (62, 80, (1 # 2)%Q, (3 # 2)%Q)]); (0, true, [(36, 70, (1 # 4)%Q, (3 # 8)%Q)])].
Proof.
  assert (G : forall A (l1 : list A) x l2 y l3 l, l = l1 ++ x :: l2 ++ y :: l3 -> exists i j, (i < j)%nat /\ nth_error l i = Some x /\ nth_error l j = Some y).
  { intros A l1 x l2 y l3 l ->. exists (List.length l1), (List.length l1 + S (List.length l2))%nat. split; [lia|]. split.
    - rewrite nth_error_app2, Nat.sub_diag by lia. reflexivity.
    - rewrite nth_error_app2 by lia. replace (_ - _)%nat with (S (List.length l2)) by lia. cbn [nth_error]. rewrite nth_error_app2, Nat.sub_diag by lia. reflexivity. }
  split; [|split; [|split; [reflexivity|eexists; split; [vm_compute; reflexivity|vm_compute; reflexivity]]]].
  - split; [discriminate|]. split; [intros H; cbn in H; repeat (destruct H as [H|H]; [discriminate|]); destruct H|]. split; [|split; [|split]].
    + intros t e T. cbn in T. repeat (destruct T as [<-|T]; [intros H; cbn in H; repeat (destruct H as [<-|H]; [cbn; unfold bits7; lia|]); destruct H|]). destruct T.
    + intros t e T. cbn in T. repeat (destruct T as [<-|T]; [intros H; cbn in H; repeat (destruct H as [<-|H]; [cbn; unfold MAX_TICK; lia|]); destruct H|]). destruct T.
    + intros t0 rest e E H. injection E as <- _. cbn in H. repeat (destruct H as [<-|H]; [cbn|]); try lia; auto.
      * split; [lia|]. exists 2. split; [lia|reflexivity].
      * exists 7. split; [reflexivity|lia].
    + intros t T l1 l2 l3 k c n v w E V W. destruct (G _ _ _ _ _ _ _ E) as (i & j & IJ & I & J). clear E.
      repeat (destruct T as [<-|T]; [cbn in I, J;
        repeat (lazymatch type of I with nth_error [] i = _ => fail | _ => idtac end; destruct i as [|i]; cbn [nth_error] in I;
          [try discriminate; injection I as <- <- <- <-;
           repeat (lazymatch type of J with nth_error [] j = _ => fail | _ => idtac end; destruct j as [|j]; cbn [nth_error] in J; [first [lia|discriminate|injection J as <-; lia]|]);
           destruct j; discriminate|]); destruct i; discriminate|]). destruct T.
  - intros ks ND H. assert (I : incl ks [(4, 0, 1); (0, 9, 1)]).
    { intros [[pr ch] tr] K. destruct (H _ K) as [a [l (i & t & E & N & P)]]. cbn [fst snd] in *. subst tr.
      assert (A : In ((pr, ch), a) (denoted t)) by (apply L_Load2.of_inst_In; rewrite <- P; left; auto).
      destruct i as [|[|i]]; cbn in N; [injection N as <-; destruct A| |destruct i; discriminate]. injection N as <-. change (denoted _) with
        [((4, 0), M_Load.mkP 90 60 0 2); ((4, 0), M_Load.mkP 91 64 0 2); ((0, 9), M_Load.mkP 70 36 2 3); ((4, 0), M_Load.mkP 80 62 4 8); ((4, 0), M_Load.mkP 80 65 8 8)] in A.
      cbn in A. repeat (destruct A as [A|A]; [injection A as <- <- _; cbn; auto|]). destruct A. }
    pose proof (NoDup_incl_length ND I). cbn in *. lia.
Qed.
Example C168_case : tempo_within 500000 1000000 f167 /\ (forall n, In n [M_Load.mkP 90 60 0 2; M_Load.mkP 91 64 0 2; M_Load.mkP 80 62 4 8] -> pn_end n * 1000000 < 1000000000 * (pn_end n - pn_start n) * 500000).
Proof.
  split.
  - intros k K. cbn. unfold at_tick. cbn. repeat match goal with |- context [?a <=? k] => destruct (a <=? k) end; lia.
  - intros n H. cbn in H. repeat (destruct H as [<-|H]; [cbn; lia|]). destruct H.
Qed.
Example C169_case : exists so g b', read_file k167 9 4 f167 = Ok so /\ match trk (so_ms so) 0 with Some q => build_sequence P_Graph.e_ex b_new q (mkC 2 8 TensorAttr false (1 # 2) false) None = (Ok g, b') | None => False end /\
  nodes_of g = [2 ^ 60 + 2 ^ 64; 2 ^ 62].
Proof. eexists. eexists. eexists. split; [vm_compute; reflexivity|]. split; [vm_compute; reflexivity|vm_compute; reflexivity]. Qed.
