(** Property C208: mixing the waveforms of the instruments.  Specification: S_Synth. *)
From Coq Require Import Qabs Lia Lqa Permutation.
From Verif Require Import PyBase L_Base M_Note L_Note M_Float L_Float L_Snap L_NoteF P_Rounding M_Synth S_Synth L_Synth.
Open Scope list_scope.
Open Scope Q_scope.

Lemma longest_unique : forall ws n m, longest ws n -> longest ws m -> n = m.
Proof. intros ws n m (A & w & I & E) (B & v & J & F). pose proof (A v J). pose proof (B w I). lia. Qed.
Lemma mix_syn : forall r ws, ws <> [] -> synthesize r ws = mix r ws.
Proof. intros r [|w ws] H; [destruct H; auto|reflexivity]. Qed.

(** C208: the result is as long as the longest waveform; every sample is what is heard there over the peak (NaN
    where everything is silent).  If no waveform has a sample it is a ValueError. *)
Theorem C208_samples : forall r ws n, longest ws n ->
  (n = 0%nat -> synthesize r ws = Err ValueError) /\
  (n <> 0%nat -> exists l p, synthesize r ws = Ok l /\ List.length l = n /\ peak (heard_at r ws) n p /\
     forall k, (k < n)%nat -> exists s, nth_error l k = Some s /\ (p == 0 -> s = None) /\ (0 < p -> s = Some (r (heard_at r ws k / p)))).
Proof.
  intros r ws n L. assert (NE : ws <> []) by (intro; subst; destruct L as (_ & w & [] & _)). rewrite mix_syn by auto. unfold mix.
  assert (N : fold_left (fun m w => Nat.max m (List.length w)) ws 0%nat = n).
  { apply (longest_unique ws); auto. destruct ws as [|w ws]; [congruence|apply max_longest]. }
  rewrite N. split; intro H.
  - subst n. rewrite H. reflexivity.
  - rewrite (proj2 (Nat.eqb_neq n 0) H). set (a := fold_left (add_into r) ws (repeat 0 n)). exists (normalize r a), (loudest a).
    assert (LA : List.length a = n) by (unfold a; rewrite fold_len, repeat_length; auto).
    assert (NA : forall k, nth k a 0 = heard_at r ws k).
    { intro k. unfold a. rewrite fold_nth by (rewrite repeat_length; apply L). unfold heard_at. f_equal. apply nth_repeat. }
    split; auto. split; [rewrite norm_len; auto|]. destruct (loudest_peak a) as (P1 & P2 & P3). rewrite LA in P2, P3. split.
    + split; auto. split; [intros k K; rewrite <- NA; auto|]. intro N0. destruct (P3 N0) as (k & K & E). exists k. rewrite <- NA. auto.
    + intros k K. rewrite norm_nth by lia. rewrite NA. eexists. split; [reflexivity|]. split; intro Z.
      * rewrite (proj2 (Qeq_bool_iff _ _) Z). reflexivity.
      * destruct (Qeq_bool (loudest a) 0) eqn:E; auto. apply Qeq_bool_iff in E. lra.
Qed.
Print Assumptions C208_samples.

(** C208: in exact arithmetic what is heard is the sum of all the waveforms. *)
Theorem C208_sum : forall ws k, heard_at (fun x => x) ws k == total ws k.
Proof.
  intros ws k. unfold heard_at. assert (G : forall s, heard (fun x => x) s ws k == s + total ws k); [|rewrite G; ring].
  induction ws as [|w ws IH]; intro s; cbn [heard total]; [ring|]. rewrite IH. destruct (nth_error w k) as [x|] eqn:E.
  - rewrite (nth_error_nth w k 0 E). ring.
  - rewrite nth_overflow by (apply nth_error_None; auto). ring.
Qed.
Print Assumptions C208_sum.

Lemma round_1 : forall r x, rounding r -> x == 1 -> r x == 1.
Proof. intros r x [-> | ->] E; auto. rewrite (fl_m _ _ E). apply (fl_Z 1). lia. Qed.
Lemma round_m1 : forall r x, rounding r -> x == -1 -> r x == -1.
Proof. intros r x [-> | ->] E; auto. rewrite (fl_m x (- (1))) by lra. rewrite fl_opp. rewrite (fl_Z 1) by lia. reflexivity. Qed.
Lemma round_le : forall r x y, rounding r -> x <= y -> r x <= r y.
Proof. intros r x y [-> | ->] E; auto. apply fl_mono; auto. Qed.
Lemma round_fix : forall r x, rounding r -> r (r x) = r x.
Proof. intros r x [-> | ->]; auto. apply fl_fl. Qed.

(** C208: in double precision too, every sample lies in [-1, 1], and either all samples are NaN or none is and one
    is 1 or -1. *)
Theorem C208_range : forall r ws l, rounding r -> synthesize r ws = Ok l ->
  (forall x, In (Some x) l -> -1 <= x <= 1) /\
  ((forall s, In s l -> s = None) \/ ((forall s, In s l -> s <> None) /\ exists x, In (Some x) l /\ (x == 1 \/ x == -1))).
Proof.
  intros r ws l R S. destruct ws as [|w ws]; [cbn in S; apply Ok_inj in S; subst; split; [intros x []|left; intros s []]|].
  pose proof (max_longest w ws) as L. set (n := fold_left _ _ _) in L. clearbody n. destruct (C208_samples r _ n L) as [Z N]. destruct (Nat.eq_dec n 0) as [EN|EN].
  { rewrite (Z EN) in S. discriminate. }
  clear Z. destruct (N EN) as (l' & p & E & LL & (P0 & P1 & P2) & V). rewrite S in E. apply Ok_inj in E. subst l'.
  assert (IN : forall s, In s l -> exists k, (k < n)%nat /\ nth_error l k = Some s) by (intros s I; apply In_nth_error in I as [k K]; exists k; split; auto; rewrite <- LL; apply nth_error_Some; congruence).
  destruct (Qlt_le_dec 0 p) as [PP|PP].
  - assert (B : forall k, (k < n)%nat -> -1 <= heard_at r (w :: ws) k / p <= 1).
    { intros k K. specialize (P1 k K). apply Qabs_Qle_condition in P1. split; [apply Qle_shift_div_l|apply Qle_shift_div_r]; auto; lra. }
    assert (VV : forall k, (k < n)%nat -> nth_error l k = Some (Some (r (heard_at r (w :: ws) k / p)))) by (intros k K; destruct (V k K) as (s & E & _ & V2); rewrite E, V2; auto).
    split; [|right; split].
    + intros x I. apply IN in I as (k & K & E). rewrite (VV k K) in E. injection E as <-. destruct (B k K) as [B1 B2].
      pose proof (round_le r _ _ R B1) as Q1. pose proof (round_le r _ _ R B2) as Q2. rewrite (round_m1 r (-1) R) in Q1 by reflexivity. rewrite (round_1 r 1 R) in Q2 by reflexivity. split; auto.
    + intros s I E0. apply IN in I as (k & K & E). rewrite (VV k K) in E. congruence.
    + destruct (P2 ltac:(lia)) as (k & K & E). exists (r (heard_at r (w :: ws) k / p)). split; [apply (nth_error_In l k); auto|].
      destruct (Qlt_le_dec (heard_at r (w :: ws) k) 0) as [H|H].
      * rewrite Qabs_neg in E by lra. right. apply round_m1; auto. rewrite <- E. field. lra.
      * rewrite Qabs_pos in E by lra. left. apply round_1; auto. rewrite <- E. field. lra.
  - assert (PZ : p == 0) by lra. split; [|left]; [intros x I|intros s I]; apply IN in I as (k & K & E); destruct (V k K) as (s' & E' & V1 & _); rewrite E' in E; injection E as E; rewrite (V1 PZ) in E; congruence.
Qed.
Print Assumptions C208_range.

(** Results from what is heard, up to a common factor. *)
Lemma same_heard : forall r ws ws' c, rounding r -> 0 < c -> (r = fl -> c == 1) -> (forall n, longest ws n -> longest ws' n) -> (ws = [] -> ws' = []) ->
  (forall k, heard_at r ws' k == c * heard_at r ws k) -> same_result (synthesize r ws) (synthesize r ws').
Proof.
  intros r ws ws' c R C CF L0 E0 H. destruct ws as [|w ws]; [rewrite (E0 eq_refl); cbn; constructor|]. clear E0.
  pose proof (max_longest w ws) as L. set (n := fold_left _ _ _) in L. clearbody n. destruct (C208_samples r _ n L) as [Z N]. destruct (C208_samples r _ n (L0 _ L)) as [Z' N'].
  destruct (Nat.eq_dec n 0) as [E|NE]; [rewrite (Z E), (Z' E); reflexivity|]. clear Z Z'.
  destruct (N NE) as (l & p & -> & LL & (P0 & P1 & P2) & V). destruct (N' NE) as (l' & p' & -> & LL' & (P0' & P1' & P2') & V').
  assert (AB : forall k, Qabs (heard_at r ws' k) == c * Qabs (heard_at r (w :: ws) k)) by (intro k; rewrite H, Qabs_Qmult, (Qabs_pos c) by lra; reflexivity).
  assert (PE : p' == c * p).
  { destruct (P2 NE) as (k & K & E). destruct (P2' NE) as (k' & K' & E'). pose proof (P1 k' K') as A1. pose proof (P1' k K) as A2. rewrite AB in A2, E'. rewrite E in A2.
    assert (c * Qabs (heard_at r (w :: ws) k') <= c * p) by (rewrite !(Qmult_comm c); apply Qmult_le_compat_r; lra). lra. }
  assert (NTH : forall k, (k < n)%nat -> exists a b, nth_error l k = Some a /\ nth_error l' k = Some b /\ same_sample a b).
  { intros k K. destruct (V k K) as (a & A1 & A2 & A3). destruct (V' k K) as (b & B1 & B2 & B3). exists a, b. split; auto. split; auto.
    destruct (Qlt_le_dec 0 p) as [PP|PP].
    - assert (PP' : 0 < p') by (rewrite PE; apply (Qmult_lt_compat_r 0 p c) in PP; auto; lra). rewrite A3, B3 by auto. cbn [same_sample].
      assert (X : heard_at r (w :: ws) k / p == heard_at r ws' k / p') by (rewrite H, PE; field; split; lra).
      destruct R as [-> | ->]; [rewrite (fl_m _ _ X); reflexivity|exact X].
    - assert (PZ : p == 0) by lra. rewrite A2, B2; auto; [exact I|]. rewrite PE, PZ. ring. }
  cbn. clear - LL LL' NTH. revert l l' LL LL' NTH. induction n as [|n IH]; intros [|a l] [|b l'] LL LL' NTH; cbn in *; try discriminate; constructor.
  - destruct (NTH 0%nat ltac:(lia)) as (x & y & X & Y & S). cbn in X, Y. injection X as <-. injection Y as <-. auto.
  - apply IH; try lia. intros k K. destruct (NTH (Datatypes.S k) ltac:(lia)) as (x & y & X & Y & S). exists x, y. auto.
Qed.

(** C208: in exact arithmetic the order of the instruments does not matter ... *)
Theorem C208_order : forall ws ws', Permutation ws ws' -> same_result (synthesize (fun x => x) ws) (synthesize (fun x => x) ws').
Proof.
  intros ws ws' PM. apply (same_heard _ _ _ 1); [right; auto|lra|lra| | |].
  - intros n (A & w & I & E). split; [intros v J; apply A; apply (Permutation_in v (Permutation_sym PM)); auto|]. exists w. split; auto. apply (Permutation_in w PM); auto.
  - intros ->. apply Permutation_nil; auto.
  - intro k. rewrite !C208_sum. assert (T : total ws k == total ws' k); [|lra]. induction PM; cbn [total]; try lra.
Qed.
Print Assumptions C208_order.

(** ... and neither does the volume, if all are louder by the same factor. *)
Theorem C208_louder : forall c ws, 0 < c -> same_result (synthesize (fun x => x) ws) (synthesize (fun x => x) (scaled c ws)).
Proof.
  intros c ws C. apply (same_heard _ _ _ c); [right; auto|auto| | | |].
  - intro F. exfalso. assert (X : fl (1 # 3) = 1 # 3) by (rewrite <- F; reflexivity). vm_compute in X. discriminate.
  - intros n (A & w & I & E). unfold scaled. split.
    + intros v J. apply in_map_iff in J as (v' & <- & J). rewrite map_length. auto.
    + exists (map (fun x => c * x) w). split; [apply in_map; auto|rewrite map_length; auto].
  - intros ->. reflexivity.
  - intro k. rewrite !C208_sum. induction ws as [|w ws IH]; cbn [scaled total map]; [ring|]. fold (scaled c ws). rewrite IH.
    destruct (nth_error w k) as [x|] eqn:E.
    + rewrite (nth_error_nth w k 0 E). erewrite nth_error_nth; [|apply map_nth_error; exact E]. ring.
    + apply nth_error_None in E. rewrite !nth_overflow by (rewrite ?map_length; auto). ring.
Qed.
Print Assumptions C208_louder.

(** C208: in double precision too, an instrument that is silent and not the only longest changes nothing. *)
Theorem C208_silence : forall r a z b w, rounding r -> (forall x, In x z -> x == 0) -> In w (a ++ b) -> (List.length z <= List.length w)%nat ->
  same_result (synthesize r (a ++ b)) (synthesize r (a ++ z :: b)).
Proof.
  intros r a z b w R Z W LW. apply (same_heard _ _ _ 1); auto; [lra|reflexivity| | |].
  - intros n (A & v & I & E). split.
    + intros y J. apply in_app_or in J as [J|[<-|J]]; [apply A, in_or_app; auto| |apply A, in_or_app; auto]. pose proof (A w W). lia.
    + exists v. split; auto. apply in_app_or in I as [I|I]; apply in_or_app; [left|right; right]; auto.
  - intros E. rewrite E in W. destruct W.
  - intro k. unfold heard_at. assert (G : forall s s', s == s' -> r s' == s' -> heard r s (a ++ z :: b) k == heard r s' (a ++ b) k).
    + assert (RM : forall x y, x == y -> r x == r y) by (intros x y X; destruct R as [-> | ->]; [rewrite (fl_m _ _ X); reflexivity|auto]).
      clear W LW. induction a as [|v a IH]; intros s s' S F; cbn [app heard].
      * assert (S1 : match nth_error z k with Some x => r (s + x) | None => s end == s').
        { destruct (nth_error z k) as [x|] eqn:E; auto. apply nth_error_In in E. apply Z in E. rewrite (RM _ s') by lra. auto. }
        revert S1. generalize (match nth_error z k with Some x => r (s + x) | None => s end) as t. clear S F Z. revert s'. induction b as [|v b IH]; intros s' t S; cbn [heard]; auto. apply IH. destruct (nth_error v k); auto. apply RM. lra.
      * destruct (nth_error v k) as [x|]; apply IH; auto; [apply RM; lra|rewrite round_fix; auto; reflexivity].
    + rewrite (G 0 0); [ring|reflexivity|]. destruct R as [-> | ->]; reflexivity.
Qed.
Print Assumptions C208_silence.

(** C208: without instruments the result is empty; fluidsynth also if no instrument has a note, and is otherwise the
    same mix. *)
Theorem C208_none : forall r, synthesize r [] = Ok [] /\
  (forall N (is_ : list (list N * list Q)), (forall i, In i is_ -> fst i = []) -> fluidsynth r is_ = Ok []) /\
  (forall N (is_ : list (list N * list Q)) i, In i is_ -> fst i <> [] -> fluidsynth r is_ = synthesize r (map snd is_)).
Proof.
  intro r. split; auto. split.
  - intros N l H. unfold fluidsynth. rewrite (proj2 (forallb_forall _ l)); [rewrite Bool.orb_true_r; reflexivity|]. intros i I. rewrite (H i I). reflexivity.
  - intros N l i I H. unfold fluidsynth. destruct l as [|j l]; [destruct I|]. replace (forallb _ (j :: l)) with false; [reflexivity|]. symmetry. apply Bool.not_true_is_false. intro F. rewrite forallb_forall in F. specialize (F i I). destruct (fst i); [congruence|discriminate].
Qed.
Print Assumptions C208_none.

(** Two instruments of different lengths, in doubles; silence; waveforms without samples. *)
Example C208_case :
  longest [[1; -3]; [1 # 2; 1; 1]] 3 /\
  synthesize fl [[1; -3]; [1 # 2; 1; 1]] = Ok [Some (3 # 4); Some (-1); Some (1 # 2)] /\
  synthesize fl [[0; 0]; [0]] = Ok [None; None] /\ synthesize fl [[]; []] = Err ValueError /\
  rounding fl /\ fluidsynth fl [([tt], [2; 1]); ([], [-1])] = Ok [Some 1; Some 1] /\ fluidsynth fl [(@nil unit, [1])] = Ok [].
Proof.
  split; [split; [intros w [<-|[<-|[]]]; cbn; lia|exists [1 # 2; 1; 1]; split; [right; left; auto|auto]]|].
  split; [vm_compute; reflexivity|]. split; [vm_compute; reflexivity|]. split; [reflexivity|]. split; [left; auto|]. split; vm_compute; reflexivity.
Qed.
