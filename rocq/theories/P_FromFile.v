(** Property C210: loading with from_file.  Specifications: S_Seqs (sequences that can share a track). *)
From Coq Require Import String Lia Permutation.
From Verif Require Import PyBase L_Base M_SortedDict M_Note L_Note M_Events M_Seq M_Seqs S_Seqs P_Seqs M_Ticks M_Load M_Meta M_Song M_Reader M_Pipe P_Pipe M_FromFile.
Open Scope list_scope.
Open Scope Z_scope.

(** C210: MidiReader.from_file returns what reading returns, and raises nothing but ValueError. *)
Theorem C210_reader : forall keynum dc r file,
  (forall so, reader_from_file keynum dc r file = Ok so <-> read_file keynum dc r file = Ok so) /\
  (forall e, reader_from_file keynum dc r file = Err e <-> e = ValueError /\ exists e', read_file keynum dc r file = Err e').
Proof.
  intros keynum dc r file. unfold reader_from_file. destruct (read_file keynum dc r file) as [so|e]; split; intros x; split; try congruence.
  - intros [_ [e' E]]. discriminate.
  - intros H. injection H as <-. split; eauto.
  - intros [-> _]. reflexivity.
Qed.
Print Assumptions C210_reader.

(** C210: with the project's own reader MidiNoteSequences.from_file never returns: an unreadable file is a ValueError,
    a readable one a TypeError. *)
Theorem C210_own_reader : forall keynum dc r file,
  (forall s, seqs_from_file (own_reader keynum dc r file) <> Ok s) /\
  ((exists so, read_file keynum dc r file = Ok so) <-> seqs_from_file (own_reader keynum dc r file) = Err TypeError) /\
  ((exists e, read_file keynum dc r file = Err e) <-> seqs_from_file (own_reader keynum dc r file) = Err ValueError).
Proof.
  intros keynum dc r file. unfold seqs_from_file, own_reader. destruct (read_file keynum dc r file) as [so|e]; cbn; (split; [discriminate|]); split; split; eauto; try discriminate; intros [x H]; discriminate.
Qed.
Print Assumptions C210_own_reader.

(** C210: with a reader that fails it is a ValueError; with one that returns a sequence or a list of sequences the
    tracks are theirs, one for each instrument number, if those of equal number can be merged (else a ValueError);
    anything else, also inside a list, is a TypeError. *)
Theorem C210_other_readers :
  (forall e, seqs_from_file (Err e) = Err ValueError) /\
  (forall q, seqs_from_file (Ok (RSeq q)) = seqs_from_file (Ok (RList [Some q]))) /\
  (forall l, same_number_mergeable l -> exists s, seqs_from_file (Ok (RList (map Some l))) = Ok (Some s) /\
     (forall k, trk s k = None <-> (forall q, In q l -> i_num (q_instr q) <> k)) /\
     (forall k t, trk s k = Some t -> i_num (q_instr t) = k /\
        Permutation (q_notes t) (List.concat (map q_notes (filter (fun q => i_num (q_instr q) =? k) l))))) /\
  (forall l, ~ same_number_mergeable l -> seqs_from_file (Ok (RList (map Some l))) = Err ValueError) /\
  (forall l, In None l -> seqs_from_file (Ok (RList l)) = Err TypeError) /\
  (forall s, seqs_from_file (Ok (RSeqs s)) = Err TypeError) /\ seqs_from_file (Ok ROther) = Err TypeError /\
  seqs_from_file (Ok RNone) = Ok None.
Proof.
  assert (F : forall l : list seq, seqs_from_file (Ok (RList (map Some l))) = bind (ms_of_list DEFAULT_PPQ l) (fun m => Ok (Some m))).
  { intro l. cbn [seqs_from_file seqs_of]. replace (forallb _ (map Some l)) with true by (clear; induction l; cbn; auto). replace (flat_map _ (map Some l)) with l; auto. clear. induction l as [|q l IH]; cbn; auto. rewrite <- IH at 1. reflexivity. }
  split; auto. split; auto. split; [|split; [|split; [|split; [|split]]]]; auto.
  - intros l M. destruct (C35_from_sequences DEFAULT_PPQ l) as [H _]. destruct (H M) as (s & E & T1 & T2). exists s. rewrite F, E. split; auto. split; auto. intros k t K. destruct (T2 k t K) as (A & B & _). auto.
  - intros l M. destruct (C35_from_sequences DEFAULT_PPQ l) as [_ H]. rewrite F, (H M). reflexivity.
  - intros l I. cbn [seqs_from_file seqs_of]. replace (forallb _ l) with false; auto. symmetry. apply Bool.not_true_is_false. intro X. rewrite forallb_forall in X. specialize (X _ I). discriminate.
Qed.
Print Assumptions C210_other_readers.

(** The file of C167: readable, so its object is delivered by MidiReader.from_file and refused by the other; three sequences. *)
Example C210_case : (exists so, reader_from_file k167 9 4 f167 = Ok so) /\ seqs_from_file (own_reader k167 9 4 f167) = Err TypeError /\
  same_number_mergeable [qa; qc; qb'] /\ (exists s, seqs_from_file (Ok (RList [Some qa; Some qc; Some qb'])) = Ok (Some s) /\ trk s 9 <> None).
Proof.
  assert (R : exists so, read_file k167 9 4 f167 = Ok so) by (destruct C167_case as (_ & _ & H); clear - H; repeat match type of H with _ /\ _ => destruct H as [_ H] end; destruct H as (so & H & _); exists so; exact H).
  split; [destruct R as [so R]; exists so; apply C210_reader; exact R|]. split; [apply C210_own_reader; exact R|]. destruct C35_case as [M (s & E & _ & S9)]. split; auto. exists s. split.
  - cbn [seqs_from_file seqs_of forallb flat_map app]. change DEFAULT_PPQ with 480. rewrite E. reflexivity.
  - intro N. rewrite N in S9. discriminate.
Qed.
