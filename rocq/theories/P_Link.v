(** Property C181: the link prediction of the auto-encoder. [predict_link z a b] is the answer for nodes [a] and
    [b] when the encoder gives the vectors [z]. *)
From Coq Require Import Reals Lra Lia.
From Verif Require Import PyBase M_Link.

Lemma dot_comm : forall a b, dot a b = dot b a.
Proof. induction a as [|x a IH]; intros [|y b]; cbn; auto. rewrite IH. ring. Qed.
Lemma dot_self : forall a, (0 <= dot a a)%R.
Proof. induction a as [|x a IH]; cbn; [lra|]. pose proof (Rle_0_sqr x) as H. unfold Rsqr in H. lra. Qed.
Lemma sigmoid_range x : (0 < sigmoid x < 1)%R.
Proof. unfold sigmoid. pose proof (exp_pos (- x)). split; [apply Rdiv_lt_0_compat; lra|]. apply (Rmult_lt_reg_r (1 + exp (- x))); [lra|]. unfold Rdiv. rewrite Rmult_assoc, Rinv_l by lra. lra. Qed.
Lemma sigmoid_mono x y : (x < y)%R -> (sigmoid x < sigmoid y)%R.
Proof. intros H. unfold sigmoid, Rdiv. rewrite !Rmult_1_l. apply Rinv_lt_contravar; [apply Rmult_lt_0_compat; pose proof (exp_pos (- x)); pose proof (exp_pos (- y)); lra|]. assert (exp (- y) < exp (- x))%R by (apply exp_increasing; lra). lra. Qed.
Lemma sigmoid_0 : sigmoid 0 = (1 / 2)%R.
Proof. unfold sigmoid. rewrite Ropp_0, exp_0. field. Qed.

(** Nodes are counted from 0, or from the end with negative numbers. *)
Definition known (z : list (list R)) (a : Z) : Prop := (- Z.of_nat (List.length z) <= a < Z.of_nat (List.length z))%Z.
Lemma index_ok {A} (z : list A) a : (- Z.of_nat (List.length z) <= a < Z.of_nat (List.length z))%Z -> exists v, at_index z a = Ok v /\ In v z.
Proof.
  intros K. unfold at_index. cbv zeta. destruct (Z.ltb_spec a 0); match goal with |- context [Z.ltb ?k 0] => destruct (Z.ltb_spec k 0) as [|N]; [lia|]; destruct (nth_error z (Z.to_nat k)) as [v|] eqn:E; [exists v; split; auto; eapply nth_error_In; eauto|apply nth_error_None in E; lia] end.
Qed.
Lemma index_err {A} (z : list A) a : ~ (- Z.of_nat (List.length z) <= a < Z.of_nat (List.length z))%Z -> at_index z a = Err IndexError.
Proof.
  intros K. unfold at_index. cbv zeta. destruct (Z.ltb_spec a 0); match goal with |- context [Z.ltb ?k 0] => destruct (Z.ltb_spec k 0) as [|N]; auto; destruct (nth_error z (Z.to_nat k)) as [v|] eqn:E; auto; assert (Z.to_nat k < List.length z)%nat by (apply nth_error_Some; congruence); lia end.
Qed.

(** C181: the answer exists exactly for nodes of the graph; it is the same for both orders of the nodes, lies
    strictly between 0 and 1, is above 1/2 exactly if the inner product of the vectors is positive and grows
    with it, and a node is never predicted to be without a link to itself. *)
Theorem C181_link : forall z,
  (forall a b, ~ (known z a /\ known z b) -> predict_link z a b = Err IndexError) /\
  (forall a b, predict_link z a b = predict_link z b a) /\
  (forall a b, known z a -> known z b -> exists u v p, at_index z a = Ok u /\ at_index z b = Ok v /\ predict_link z a b = Ok p /\
     (0 < p < 1)%R /\ ((1 / 2 < p)%R <-> (0 < dot u v)%R)) /\
  (forall a, known z a -> exists p, predict_link z a a = Ok p /\ (1 / 2 <= p)%R) /\
  (forall a b c d u v x y p q, at_index z a = Ok u -> at_index z b = Ok v -> at_index z c = Ok x -> at_index z d = Ok y ->
     predict_link z a b = Ok p -> predict_link z c d = Ok q -> (dot u v < dot x y)%R -> (p < q)%R).
Proof.
  intros z. assert (D : forall a, known z a \/ ~ known z a) by (intros a; unfold known; lia). split; [|split; [|split; [|split]]].
  - intros a b N. unfold predict_link. destruct (D a) as [A|A]; [|rewrite (index_err z a A); reflexivity]. destruct (D b) as [B|B]; [tauto|]. destruct (index_ok z a A) as (u & -> & _). cbn [bind]. rewrite (index_err z b B). reflexivity.
  - intros a b. unfold predict_link. destruct (D a) as [A|A]; [destruct (index_ok z a A) as (u & -> & _)|rewrite (index_err z a A)]; (destruct (D b) as [B|B]; [destruct (index_ok z b B) as (v & -> & _)|rewrite (index_err z b B)]); cbn [bind]; auto. rewrite dot_comm. reflexivity.
  - intros a b A B. destruct (index_ok z a A) as (u & EA & _). destruct (index_ok z b B) as (v & EB & _). exists u, v, (sigmoid (dot u v)). split; auto. split; auto.
    split; [unfold predict_link; rewrite EA; cbn [bind]; rewrite EB; reflexivity|]. split; [apply sigmoid_range|]. rewrite <- sigmoid_0. split; [|apply sigmoid_mono].
    intros H. destruct (Rlt_le_dec 0 (dot u v)) as [L|L]; auto. exfalso. destruct L as [L|L]; [pose proof (sigmoid_mono _ _ L); lra|rewrite L in H; lra].
  - intros a A. destruct (index_ok z a A) as (u & EA & _). exists (sigmoid (dot u u)). split; [unfold predict_link; rewrite EA; cbn [bind]; reflexivity|]. rewrite <- sigmoid_0. destruct (dot_self u) as [L|L]; [left; apply sigmoid_mono; auto|rewrite <- L; lra].
  - intros a b c d u v x y p q EA EB EC ED EP EQ L. unfold predict_link in EP, EQ. rewrite EA in EP. rewrite EC in EQ. cbn [bind] in EP, EQ. rewrite EB in EP. rewrite ED in EQ. cbn [bind] in EP, EQ. injection EP as <-. injection EQ as <-. apply sigmoid_mono. auto.
Qed.
Print Assumptions C181_link.
Example C181_case : known [[1; 2]; [3; -1]]%R (-1)%Z /\ known [[1; 2]; [3; -1]]%R 0%Z /\ at_index [[1; 2]; [3; -1]]%R (-1)%Z = Ok [3; -1]%R /\ dot [1; 2]%R [3; -1]%R = 1%R.
Proof. unfold known. cbn [List.length]. split; [lia|]. split; [lia|]. split; [reflexivity|]. cbn. ring. Qed.
