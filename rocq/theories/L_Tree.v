From Coq Require Import Lia Permutation Sorted.
From Verif Require Import PyBase L_Base M_FloatInterval M_Node M_Tree S_Interval S_FloatInterval S_Tree L_FloatInterval.
Open Scope Z_scope.
#[local] Arguments Z.add : simpl never.
#[local] Arguments Z.sub : simpl never.
#[local] Arguments Z.max : simpl never.
#[local] Arguments Z.abs : simpl never.
#[local] Arguments Z.mul : simpl never.

(** ** Node level *)
Fixpoint inorder (t : node) : list (Z * list fiv) :=
  match t with Nil => [] | Nd x s l r _ _ => inorder l ++ (x, s) :: inorder r end.
Notation acc := records_right.

Lemma height_nonneg : forall t, 0 <= height t.
Proof. induction t; simpl; lia. Qed.
Lemma height_pos : forall x s l r d b, 1 <= height (Nd x s l r d b).
Proof. intros; simpl. pose proof (height_nonneg l). lia. Qed.
Lemma acc_depth : forall t, acc t -> nd_depth t = height t.
Proof. intros [|]; simpl; tauto. Qed.
Lemma elems_inorder : forall t, nd_elems t = flat_map snd (inorder t).
Proof. induction t; simpl; auto. rewrite flat_map_app; simpl. congruence. Qed.
Lemma keys_inorder : forall t, keys t = map fst (inorder t).
Proof. induction t; simpl; auto. rewrite map_app; simpl. congruence. Qed.
Lemma size_inorder : forall t, nd_size t = List.length (inorder t).
Proof. induction t; simpl; auto. rewrite app_length; simpl. lia. Qed.

Definition calm (t : node) : Prop := forall i, In i (nd_elems t) -> ordinary i.
Lemma calm_inorder : forall t t', inorder t = inorder t' -> calm t -> calm t'.
Proof. unfold calm; intros t t' H; rewrite !elems_inorder, H; auto. Qed.
Lemma calm_prom : forall n xs, calm n -> filter (center_hit xs) (nd_s n) = [].
Proof.
  intros [|x s l r d b] xs H; simpl; auto.
  assert (Hs : forall i, In i s -> ordinary i).
  { intros i Hi; apply H; simpl. rewrite !in_app_iff; auto. }
  clear H. induction s as [|i s IH]; simpl; auto.
  unfold center_hit at 1. rewrite ordinary_no_hit by (apply Hs; simpl; auto).
  apply IH; intros; apply Hs; simpl; auto.
Qed.
Lemma calm_node : forall x s l r d b, calm (Nd x s l r d b) <->
  calm l /\ calm r /\ forall i, In i s -> ordinary i.
Proof.
  unfold calm; intros; simpl; split.
  - intros H; repeat split; intros; apply H; rewrite !in_app_iff; auto.
  - intros [H1 [H2 H3]] i. rewrite !in_app_iff. intros [?|[?|?]]; auto.
Qed.

Lemma refresh_acc : forall x s l r d b, acc l -> acc r ->
  acc (refresh (Nd x s l r d b)) /\
  refresh (Nd x s l r d b) = Nd x s l r (1 + Z.max (height l) (height r)) (height r - height l).
Proof. intros. simpl. rewrite !acc_depth by auto. auto. Qed.

(** General rotation: any tree whose children's records are right. *)
Lemma srotate_ok : forall rot rm x s l r d b,
  (forall x' s' l' r' d' b', acc l' -> acc r' -> calm (Nd x' s' l' r' d' b') ->
     (nd_size l' + nd_size r' < nd_size l + nd_size r)%nat ->
     exists t', rot (Nd x' s' l' r' d' b') = Ok t' /\ acc t' /\ inorder t' = inorder (Nd x' s' l' r' d' b')) ->
  acc l -> acc r -> calm (Nd x s l r d b) -> b = height r - height l ->
  (1 <= nd_size l + nd_size r)%nat ->
  exists t', srotate_with rot rm (Nd x s l r d b) = Ok t' /\ acc t' /\
     inorder t' = inorder (Nd x s l r d b) /\ t' <> Nil.
Proof.
  intros rot rm x s l r d b Hrot Hl Hr Hc Hb Hn.
  apply calm_node in Hc as [Hcl [Hcr Hs]].
  unfold srotate_with. destruct (Z.ltb_spec 0 b).
  - destruct r as [|xs ss ls rs ds bs].
    { simpl in *. pose proof (height_nonneg l); lia. }
    apply calm_node in Hcr as [Hc1 [Hc2 Hss]].
    destruct Hr as [? [? [Hls Hrs]]].
    destruct (Hrot x s l ls d b) as [n [E [Hn1 Hn2]]]; auto.
    { apply calm_node; auto. } { simpl; lia. }
    rewrite E. cbn [bind foldM fold_left].
    assert (Hcn : calm n).
    { eapply calm_inorder; [symmetry; exact Hn2|]. apply calm_node; auto. }
    rewrite (calm_prom n xs Hcn). cbn [bind foldM fold_left].
    destruct (refresh_acc xs ss n rs ds bs) as [A1 A2]; auto.
    eexists; split; [reflexivity|]. split; [exact A1|]. split; [|discriminate].
    simpl. rewrite Hn2. simpl. rewrite <- app_assoc. reflexivity.
  - destruct l as [|xs ss ls rs ds bs].
    { simpl in *. destruct r; simpl in *; [lia|]. pose proof (height_nonneg r1); lia. }
    apply calm_node in Hcl as [Hc1 [Hc2 Hss]].
    destruct Hl as [? [? [Hls Hrs]]].
    destruct (Hrot x s rs r d b) as [n [E [Hn1 Hn2]]]; auto.
    { apply calm_node; auto. } { simpl; lia. }
    rewrite E. cbn [bind foldM fold_left].
    assert (Hcn : calm n).
    { eapply calm_inorder; [symmetry; exact Hn2|]. apply calm_node; auto. }
    rewrite (calm_prom n xs Hcn). cbn [bind foldM fold_left].
    destruct (refresh_acc xs ss ls n ds bs) as [A1 A2]; auto.
    eexists; split; [reflexivity|]. split; [exact A1|]. split; [|discriminate].
    simpl. rewrite Hn2. simpl. rewrite <- app_assoc. reflexivity.
Qed.

Lemma rotate_ok : forall f x s l r d b, (nd_size (Nd x s l r d b) <= f)%nat ->
  acc l -> acc r -> calm (Nd x s l r d b) ->
  exists t', nd_rotate f (Nd x s l r d b) = Ok t' /\ acc t' /\ inorder t' = inorder (Nd x s l r d b).
Proof.
  induction f as [|f IH]; intros x s l r d b Hf Hl Hr Hc; [simpl in Hf; lia|].
  cbn [nd_rotate]. set (rm := fun t i => _).
  assert (Hrot : forall n, (n <= nd_size l + nd_size r)%nat -> 
     forall x' s' l' r' d' b', acc l' -> acc r' -> calm (Nd x' s' l' r' d' b') ->
     (nd_size l' + nd_size r' < n)%nat ->
     exists t', nd_rotate f (Nd x' s' l' r' d' b') = Ok t' /\ acc t' /\ inorder t' = inorder (Nd x' s' l' r' d' b')).
  { intros n Hn x' s' l' r' d' b' A1 A2 A3 A4. apply IH; auto. simpl in *; lia. }
  unfold rotate_with.
  destruct (refresh_acc x s l r d b Hl Hr) as [A1 A2].
  rewrite A2 in *.
  destruct (Z.ltb_spec (Z.abs (height r - height l)) 2).
  { eexists; split; [reflexivity|]. split; auto. }
  assert (Hne : (1 <= nd_size l + nd_size r)%nat).
  { destruct l, r; simpl in *; lia. }
  match goal with |- context [if ?c then srotate_with _ _ _ else _] => destruct c eqn:Ec end.
  - destruct (srotate_ok (nd_rotate f) rm x s l r (1 + Z.max (height l) (height r)) (height r - height l))
      as [t' [E1 [E2 [E3 _]]]]; auto.
    { apply Hrot. lia. }
    eauto.
  - unfold drotate_with.
    apply orb_false_iff in Ec as [Ec1 Ec2]. apply eqb_false_iff in Ec1. apply Z.eqb_neq in Ec2.
    apply calm_node in Hc as [Hcl [Hcr Hs]].
    destruct (Z.ltb_spec 0 (height r - height l)).
    + destruct r as [|xr sr lr rr dr br]; [simpl in Ec2; congruence|].
      destruct (Hr) as [? [Hbr [Hlr Hrr]]].
      destruct (srotate_ok (nd_rotate f) rm xr sr lr rr dr br) as [r' [E1 [E2 [E3 E4]]]]; auto.
      { apply Hrot. simpl; lia. }
      { simpl in Ec2. destruct lr, rr; simpl in *; lia. }
      rewrite E1. cbn [bind foldM fold_left].
      destruct (refresh_acc x s l r' (1 + Z.max (height l) (height (Nd xr sr lr rr dr br)))
                  (height (Nd xr sr lr rr dr br) - height l)) as [B1 B2]; auto.
      rewrite B2.
      assert (Hsz : nd_size r' = nd_size (Nd xr sr lr rr dr br)).
      { rewrite !size_inorder, E3; auto. }
      destruct (srotate_ok (nd_rotate f) rm x s l r' (1 + Z.max (height l) (height r')) (height r' - height l))
        as [t' [F1 [F2 [F3 _]]]]; auto.
      { apply Hrot. lia. }
      { apply calm_node; split; [auto|split; [|auto]]. eapply calm_inorder; [symmetry; exact E3|auto]. }
      { lia. }
      exists t'; split; auto. split; auto. rewrite F3. cbn [inorder]. rewrite E3. reflexivity.
    + destruct l as [|xl sl ll rl dl bl]; [simpl in Ec2; congruence|].
      destruct (Hl) as [? [Hbl [Hll Hrl]]].
      destruct (srotate_ok (nd_rotate f) rm xl sl ll rl dl bl) as [l' [E1 [E2 [E3 E4]]]]; auto.
      { apply Hrot. simpl; lia. }
      { simpl in Ec2. destruct ll, rl; simpl in *; lia. }
      rewrite E1. cbn [bind foldM fold_left].
      destruct (refresh_acc x s l' r (1 + Z.max (height (Nd xl sl ll rl dl bl)) (height r))
                  (height r - height (Nd xl sl ll rl dl bl))) as [B1 B2]; auto.
      rewrite B2.
      assert (Hsz : nd_size l' = nd_size (Nd xl sl ll rl dl bl)).
      { rewrite !size_inorder, E3; auto. }
      destruct (srotate_ok (nd_rotate f) rm x s l' r (1 + Z.max (height l') (height r)) (height r - height l'))
        as [t' [F1 [F2 [F3 _]]]]; auto.
      { apply Hrot. lia. }
      { apply calm_node; split; [|split; auto]. eapply calm_inorder; [symmetry; exact E3|auto]. }
      { lia. }
      exists t'; split; auto. split; auto. rewrite F3. cbn [inorder]. rewrite E3. reflexivity.
Qed.

(** AVL rotation *)
Notation avl t := (acc t /\ balanced t).

Lemma rotate_small : forall f x s l r d b, (1 <= f)%nat -> acc l -> acc r ->
  Z.abs (height r - height l) < 2 ->
  nd_rotate f (Nd x s l r d b) = Ok (Nd x s l r (1 + Z.max (height l) (height r)) (height r - height l)).
Proof.
  intros f x s l r d b Hf Hl Hr H. destruct f; [lia|]. cbn [nd_rotate]. unfold rotate_with.
  destruct (refresh_acc x s l r d b Hl Hr) as [A1 A2]. rewrite A2.
  destruct (Z.ltb_spec (Z.abs (height r - height l)) 2); auto; lia.
Qed.

(** Single rotation when the moved subtree fits without further rotation. *)
Lemma srotate_r : forall f rm x s l xs ss ls rs ds bs d b,
  (1 <= f)%nat -> acc l -> acc (Nd xs ss ls rs ds bs) -> calm (Nd x s l (Nd xs ss ls rs ds bs) d b) ->
  0 < b -> Z.abs (height ls - height l) < 2 ->
  srotate_with (nd_rotate f) rm (Nd x s l (Nd xs ss ls rs ds bs) d b) =
  Ok (refresh (Nd xs ss (Nd x s l ls (1 + Z.max (height l) (height ls)) (height ls - height l)) rs ds bs)).
Proof.
  intros f rm x s l xs ss ls rs ds bs d b Hf Hl [? [? [H1 H2]]] Hc Hb Hh.
  unfold srotate_with. destruct (Z.ltb_spec 0 b); [|lia].
  rewrite rotate_small by auto. cbn [bind foldM fold_left].
  apply calm_node in Hc as [C1 [C2 C3]]. apply calm_node in C2 as [C4 [C5 C6]].
  rewrite calm_prom by (apply calm_node; auto). reflexivity.
Qed.
Lemma srotate_l : forall f rm x s r xs ss ls rs ds bs d b,
  (1 <= f)%nat -> acc r -> acc (Nd xs ss ls rs ds bs) -> calm (Nd x s (Nd xs ss ls rs ds bs) r d b) ->
  b <= 0 -> Z.abs (height r - height rs) < 2 ->
  srotate_with (nd_rotate f) rm (Nd x s (Nd xs ss ls rs ds bs) r d b) =
  Ok (refresh (Nd xs ss ls (Nd x s rs r (1 + Z.max (height rs) (height r)) (height r - height rs)) ds bs)).
Proof.
  intros f rm x s r xs ss ls rs ds bs d b Hf Hl [? [? [H1 H2]]] Hc Hb Hh.
  unfold srotate_with. destruct (Z.ltb_spec 0 b); [lia|].
  rewrite rotate_small by auto. cbn [bind foldM fold_left].
  apply calm_node in Hc as [C1 [C2 C3]]. apply calm_node in C1 as [C4 [C5 C6]].
  rewrite calm_prom by (apply calm_node; auto). reflexivity.
Qed.

Lemma rotate_avl : forall f x s l r d b, (2 <= f)%nat -> avl l -> avl r -> calm (Nd x s l r d b) ->
  Z.abs (height r - height l) <= 2 ->
  exists t', nd_rotate f (Nd x s l r d b) = Ok t' /\ avl t' /\
    inorder t' = inorder (Nd x s l r d b) /\
    Z.max (height l) (height r) <= height t' <= 1 + Z.max (height l) (height r) /\
    (Z.abs (height r - height l) <= 1 -> height t' = 1 + Z.max (height l) (height r)).
Proof.
  intros f x s l r d b Hf [Al Bl] [Ar Br] Hc Hh.
  destruct f as [|f]; [lia|].
  destruct (Z.lt_ge_cases (Z.abs (height r - height l)) 2) as [Hs|Hs].
  { rewrite rotate_small by (auto; lia). eexists; split; [reflexivity|]. simpl. repeat split; auto; lia. }
  cbn [nd_rotate]. set (rm := fun t i => _). unfold rotate_with.
  destruct (refresh_acc x s l r d b Al Ar) as [A1 A2]. rewrite A2.
  destruct (Z.ltb_spec (Z.abs (height r - height l)) 2); [lia|].
  destruct (Z.ltb_spec 0 (height r - height l)).
  - destruct r as [|xr sr lr rr dr br]; [simpl in *; pose proof (height_nonneg l); lia|].
    destruct (Ar) as [Ed [Eb [Alr Arr]]]. destruct (Br) as [Bh [Blr Brr]].
    cbn [nd_balance].
    assert (C0 : calm l /\ calm lr /\ calm rr /\ (forall i, In i s -> ordinary i) /\ (forall i, In i sr -> ordinary i)).
    { apply calm_node in Hc as [C1 [C2 C3]]. apply calm_node in C2 as [C4 [C5 C6]]. auto. }
    destruct C0 as [C1 [C2 [C3 [C4 C5]]]].
    assert (Eh : height (Nd xr sr lr rr dr br) = 1 + Z.max (height lr) (height rr)) by reflexivity.
    destruct (Bool.eqb true (0 <? br) || (br =? 0)) eqn:Ec.
    + assert (0 <= br).
      { destruct (Z.ltb_spec 0 br); [lia|]. simpl in Ec. apply Z.eqb_eq in Ec; lia. }
      rewrite srotate_r; auto; try lia.
      destruct (refresh_acc xr sr (Nd x s l lr (1 + Z.max (height l) (height lr)) (height lr - height l)) rr dr br)
        as [D1 D2]; [simpl; auto | auto |].
      rewrite D2 in *. eexists; split; [reflexivity|]. 
      repeat split; auto.
      all: try (simpl; lia).
      simpl. rewrite <- app_assoc. reflexivity.
    + assert (br = -1).
      { destruct (Z.ltb_spec 0 br); [discriminate|]. simpl in Ec. apply Z.eqb_neq in Ec; lia. }
      destruct lr as [|xc sc lc rc dc bc]; [simpl in *; pose proof (height_nonneg rr); lia|].
      destruct (Alr) as [Edc [Ebc [Alc Arc]]]. destruct (Blr) as [Bhc [Blc Brc]].
      assert (Ehc : height (Nd xc sc lc rc dc bc) = 1 + Z.max (height lc) (height rc)) by reflexivity.
      unfold drotate_with. destruct (Z.ltb_spec 0 (height (Nd xr sr (Nd xc sc lc rc dc bc) rr dr br) - height l)); [|lia].
      rewrite srotate_l; auto; try lia.
      2:{ apply calm_node; auto. }
      cbn [bind foldM fold_left].
      set (in1 := Nd xr sr rc rr (1 + Z.max (height rc) (height rr)) (height rr - height rc)).
      assert (Ai : acc in1) by (simpl; auto).
      destruct (refresh_acc xc sc lc in1 dc bc Alc Ai) as [D1 D2]. rewrite D2 in *.
      set (r' := Nd xc sc lc in1 (1 + Z.max (height lc) (height in1)) (height in1 - height lc)) in *.
      destruct (refresh_acc x s l r' (1 + Z.max (height l) (height (Nd xr sr (Nd xc sc lc rc dc bc) rr dr br)))
        (height (Nd xr sr (Nd xc sc lc rc dc bc) rr dr br) - height l) Al D1) as [D3 D4].
      rewrite D4.
      assert (Ei : height in1 = 1 + Z.max (height rc) (height rr)) by reflexivity.
      assert (Er : height r' = 1 + Z.max (height lc) (height in1)) by reflexivity.
      apply calm_node in C2 as [C21 [C22 C23]].
      unfold r' at 1. rewrite srotate_r; auto; try lia.
      2:{ apply calm_node; split; [auto|split; [|auto]]. apply calm_node; split; [auto|split; [|auto]]. apply calm_node; auto. }
      fold r'.
      set (in2 := Nd x s l lc (1 + Z.max (height l) (height lc)) (height lc - height l)).
      assert (Ai2 : acc in2) by (simpl; auto).
      match goal with |- context [refresh (Nd xc sc in2 in1 ?p ?q)] =>
        destruct (refresh_acc xc sc in2 in1 p q Ai2 Ai) as [D5 D6] end.
      rewrite D6 in *.
      assert (Ei2 : height in2 = 1 + Z.max (height l) (height lc)) by reflexivity.
      eexists; split; [reflexivity|].
      repeat split; auto; try lia; cbn [balanced height in2 in1]; repeat split; auto; try lia.
      simpl. repeat (rewrite <- !app_assoc; simpl). reflexivity.
  - destruct l as [|xr sr lr rr dr br]; [simpl in *; pose proof (height_nonneg r); lia|].
    destruct (Al) as [Ed [Eb [Alr Arr]]]. destruct (Bl) as [Bh [Blr Brr]].
    cbn [nd_balance].
    assert (C0 : calm r /\ calm lr /\ calm rr /\ (forall i, In i s -> ordinary i) /\ (forall i, In i sr -> ordinary i)).
    { apply calm_node in Hc as [C1 [C2 C3]]. apply calm_node in C1 as [C4 [C5 C6]]. auto. }
    destruct C0 as [C1 [C2 [C3 [C4 C5]]]].
    assert (Eh : height (Nd xr sr lr rr dr br) = 1 + Z.max (height lr) (height rr)) by reflexivity.
    destruct (Bool.eqb false (0 <? br) || (br =? 0)) eqn:Ec.
    + assert (br <= 0).
      { destruct (Z.ltb_spec 0 br); [|lia]. simpl in Ec. apply Z.eqb_eq in Ec; lia. }
      rewrite srotate_l; auto; try lia.
      destruct (refresh_acc xr sr lr (Nd x s rr r (1 + Z.max (height rr) (height r)) (height r - height rr)) dr br)
        as [D1 D2]; [auto | simpl; auto |].
      rewrite D2 in *. eexists; split; [reflexivity|]. 
      repeat split; auto.
      all: try (simpl; lia).
      simpl. rewrite <- app_assoc. reflexivity.
    + assert (br = 1).
      { destruct (Z.ltb_spec 0 br); [|discriminate]. lia. }
      destruct rr as [|xc sc lc rc dc bc]; [simpl in *; pose proof (height_nonneg lr); lia|].
      destruct (Arr) as [Edc [Ebc [Alc Arc]]]. destruct (Brr) as [Bhc [Blc Brc]].
      assert (Ehc : height (Nd xc sc lc rc dc bc) = 1 + Z.max (height lc) (height rc)) by reflexivity.
      unfold drotate_with. destruct (Z.ltb_spec 0 (height r - height (Nd xr sr lr (Nd xc sc lc rc dc bc) dr br))); [lia|].
      rewrite srotate_r; auto; try lia.
      2:{ apply calm_node; auto. }
      cbn [bind foldM fold_left].
      set (in1 := Nd xr sr lr lc (1 + Z.max (height lr) (height lc)) (height lc - height lr)).
      assert (Ai : acc in1) by (simpl; auto).
      destruct (refresh_acc xc sc in1 rc dc bc Ai Arc) as [D1 D2]. rewrite D2 in *.
      set (r' := Nd xc sc in1 rc (1 + Z.max (height in1) (height rc)) (height rc - height in1)) in *.
      destruct (refresh_acc x s r' r (1 + Z.max (height (Nd xr sr lr (Nd xc sc lc rc dc bc) dr br)) (height r))
        (height r - height (Nd xr sr lr (Nd xc sc lc rc dc bc) dr br)) D1 Ar) as [D3 D4].
      rewrite D4.
      assert (Ei : height in1 = 1 + Z.max (height lr) (height lc)) by reflexivity.
      assert (Er : height r' = 1 + Z.max (height in1) (height rc)) by reflexivity.
      apply calm_node in C3 as [C21 [C22 C23]].
      unfold r' at 1. rewrite srotate_l; auto; try lia.
      2:{ apply calm_node; split; [|split; auto]. apply calm_node; split; [|split; auto]. apply calm_node; auto. }
      fold r'.
      set (in2 := Nd x s rc r (1 + Z.max (height rc) (height r)) (height r - height rc)).
      assert (Ai2 : acc in2) by (simpl; auto).
      match goal with |- context [refresh (Nd xc sc in1 in2 ?p ?q)] =>
        destruct (refresh_acc xc sc in1 in2 p q Ai Ai2) as [D5 D6] end.
      rewrite D6 in *.
      assert (Ei2 : height in2 = 1 + Z.max (height rc) (height r)) by reflexivity.
      eexists; split; [reflexivity|].
      repeat split; auto; try lia; cbn [balanced height in2 in1]; repeat split; auto; try lia.
      simpl. repeat (rewrite <- !app_assoc; simpl). reflexivity.
Qed.

(** ** add *)
Definition inserted (i : fiv) (t t' : node) : Prop :=
  exists l1 l2, inorder t = l1 ++ l2 /\ inorder t' = l1 ++ (f_begin i, [i]) :: l2 /\
    (StronglySorted Z.le (keys t) -> (forall k, In k (map fst l1) -> k <= f_begin i) /\
                                     (forall k, In k (map fst l2) -> f_begin i <= k)).

Lemma SS_app : forall {A} (R : A -> A -> Prop) l1 l2,
  StronglySorted R (l1 ++ l2) <->
  StronglySorted R l1 /\ StronglySorted R l2 /\ (forall a b, In a l1 -> In b l2 -> R a b).
Proof.
  intros A R; induction l1 as [|a l1 IH]; intros l2; simpl.
  - split; [intro; repeat split; auto using SSorted_nil; intros; contradiction|tauto].
  - split.
    + intro H; inversion H as [|? ? H1 H2]; subst. apply IH in H1 as [H3 [H4 H5]].
      rewrite Forall_app in H2. destruct H2 as [H2 H2'].
      split; [constructor; auto|]. split; auto. intros x y [->|Hx] Hy; auto.
      rewrite Forall_forall in H2'; auto.
    + intros [H1 [H2 H3]]. inversion H1 as [|? ? H4 H5]; subst. constructor.
      * apply IH; auto.
      * apply Forall_app; split; auto. apply Forall_forall; intros; apply H3; auto.
Qed.
Lemma SS_cons : forall {A} (R : A -> A -> Prop) a l,
  StronglySorted R (a :: l) <-> (forall b, In b l -> R a b) /\ StronglySorted R l.
Proof.
  intros; split.
  - intro H; inversion H; subst. rewrite Forall_forall in H3; auto.
  - intros [H1 H2]; constructor; auto. apply Forall_forall; auto.
Qed.

Lemma inserted_right : forall x s l r r' d b t' i,
  x < f_begin i -> inserted i r r' -> inorder t' = inorder l ++ (x, s) :: inorder r' ->
  inserted i (Nd x s l r d b) t'.
Proof.
  intros x s l r r' d b t' i Hx [l1 [l2 [H1 [H2 H3]]]] Ht.
  exists (inorder l ++ (x, s) :: l1), l2. split; [|split].
  - simpl. rewrite H1, <- app_assoc. reflexivity.
  - rewrite Ht, H2, <- app_assoc. reflexivity.
  - intro S. cbn [keys] in S. rewrite SS_app, SS_cons in S. destruct S as [S1 [[S2 S3] S4]].
    destruct (H3 S3) as [H4 H5]. split; auto.
    intros k. rewrite map_app; simpl. rewrite in_app_iff; simpl. intros [H|[<-|H]]; try lia; auto.
    rewrite <- keys_inorder in H. specialize (S4 k x H (or_introl eq_refl)). lia.
Qed.
Lemma inserted_left : forall x s l r l' d b t' i,
  f_begin i <= x -> inserted i l l' -> inorder t' = inorder l' ++ (x, s) :: inorder r ->
  inserted i (Nd x s l r d b) t'.
Proof.
  intros x s l r l' d b t' i Hx [l1 [l2 [H1 [H2 H3]]]] Ht.
  exists l1, (l2 ++ (x, s) :: inorder r). split; [|split].
  - simpl. rewrite H1, <- app_assoc. reflexivity.
  - rewrite Ht, H2, <- app_assoc. reflexivity.
  - intro S. cbn [keys] in S. rewrite SS_app, SS_cons in S. destruct S as [S1 [[S2 S3] S4]].
    destruct (H3 S1) as [H4 H5]. split; auto.
    intros k. rewrite map_app; simpl. rewrite in_app_iff; simpl. intros [H|[<-|H]]; try lia; auto.
    rewrite <- keys_inorder in H. specialize (S2 k H). lia.
Qed.
Lemma inserted_nil : forall i, inserted i Nil (from_interval i).
Proof. intros; exists [], []; simpl; repeat split; auto; contradiction. Qed.

Lemma inserted_elems : forall i t t', inserted i t t' -> Permutation (nd_elems t') (i :: nd_elems t).
Proof.
  intros i t t' [l1 [l2 [H1 [H2 _]]]]. rewrite !elems_inorder, H1, H2.
  rewrite !flat_map_app; simpl. symmetry. apply Permutation_middle.
Qed.
Lemma inserted_calm : forall i t t', ordinary i -> inserted i t t' -> calm t -> calm t'.
Proof.
  intros i t t' Hi H Hc k Hk. apply inserted_elems in H.
  eapply Permutation_in in Hk; [|exact H]. destruct Hk as [<-|Hk]; auto.
Qed.
Lemma inserted_sorted : forall i t t', inserted i t t' -> StronglySorted Z.le (keys t) ->
  StronglySorted Z.le (keys t').
Proof.
  intros i t t' [l1 [l2 [H1 [H2 H3]]]] S. destruct (H3 S) as [H4 H5]. clear H3.
  rewrite keys_inorder in *. rewrite H1, map_app in S. rewrite H2, map_app. simpl.
  rewrite SS_app in *. destruct S as [S1 [S2 S3]]. split; auto. split.
  - apply SS_cons; auto.
  - intros a c Ha [<-|Hc]; auto.
Qed.
Lemma from_interval_eq : forall i, from_interval i = Nd (f_begin i) [i] Nil Nil 1 0.
Proof. reflexivity. Qed.

Lemma fuel_big : forall x s l r d b, (nd_size (Nd x s l r d b) <= nd_fuel (Nd x s l r d b))%nat /\ (2 <= nd_fuel (Nd x s l r d b))%nat.
Proof. intros; unfold nd_fuel; lia. Qed.

Lemma nd_add_ok : forall t i, t <> Nil -> acc t -> calm t -> ordinary i ->
  exists t', nd_add t i = Ok t' /\ acc t' /\ inserted i t t'.
Proof.
  induction t as [|x s l IHl r IHr d b]; intros i Hn Ha Hc Hi; [congruence|].
  destruct Ha as [Hd [Hb [Al Ar]]].
  destruct (proj1 (calm_node _ _ _ _ _ _) Hc) as [Cl [Cr Cs]].
  cbn [nd_add]. unfold center_hit. rewrite ordinary_no_hit by auto.
  unfold hit_branch. destruct (Z.ltb_spec x (f_begin i)).
  - destruct r as [|xr sr lr rr dr br].
    + cbn [is_nil]. destruct (refresh_acc x s l (from_interval i) d b) as [A1 A2]; auto.
      { simpl; auto. }
      rewrite A2 in *. eexists; split; [reflexivity|]. split; auto.
      eapply inserted_right; [auto|apply inserted_nil|reflexivity].
    + destruct (IHr i) as [r' [E1 [E2 E3]]]; auto; [discriminate|].
      replace (is_nil (Nd xr sr lr rr dr br)) with false by reflexivity. rewrite E1. cbn [bind].
      destruct (fuel_big x s l r' d b) as [F1 F2].
      destruct (rotate_ok _ x s l r' d b F1) as [t' [G1 [G2 G3]]]; auto.
      { apply calm_node; split; auto. split; auto. eapply inserted_calm; eauto. }
      exists t'; split; auto. split; auto. eapply inserted_right; eauto.
  - destruct l as [|xr sr lr rr dr br].
    + cbn [is_nil]. destruct (refresh_acc x s (from_interval i) r d b) as [A1 A2]; auto.
      { simpl; auto. }
      rewrite A2 in *. eexists; split; [reflexivity|]. split; auto.
      eapply inserted_left; [auto|apply inserted_nil|reflexivity].
    + destruct (IHl i) as [r' [E1 [E2 E3]]]; auto; [discriminate|].
      replace (is_nil (Nd xr sr lr rr dr br)) with false by reflexivity. rewrite E1. cbn [bind].
      destruct (fuel_big x s r' r d b) as [F1 F2].
      destruct (rotate_ok _ x s r' r d b F1) as [t' [G1 [G2 G3]]]; auto.
      { apply calm_node; split; auto. eapply inserted_calm; eauto. }
      exists t'; split; auto. split; auto. eapply inserted_left; eauto.
Qed.

Lemma nd_add_avl : forall t i, t <> Nil -> avl t -> calm t -> ordinary i ->
  forall t', nd_add t i = Ok t' -> balanced t' /\ height t <= height t' <= height t + 1.
Proof.
  induction t as [|x s l IHl r IHr d b]; intros i Hn [Ha Hbal] Hc Hi t' E; [congruence|].
  destruct Ha as [Hd [Hb [Al Ar]]]. destruct Hbal as [B0 [Bl Br]].
  destruct (proj1 (calm_node _ _ _ _ _ _) Hc) as [Cl [Cr Cs]].
  cbn [nd_add] in E. unfold center_hit in E. rewrite ordinary_no_hit in E by auto.
  unfold hit_branch in E. destruct (Z.ltb_spec x (f_begin i)).
  - destruct r as [|xr sr lr rr dr br].
    + cbn [is_nil] in E. injection E as <-. simpl in *. pose proof (height_nonneg l). repeat split; auto; lia.
    + replace (is_nil (Nd xr sr lr rr dr br)) with false in E by reflexivity.
      destruct (nd_add_ok (Nd xr sr lr rr dr br) i) as [r' [E1 [E2 E3]]]; auto; [discriminate|].
      destruct (IHr i) with (t' := r') as [G1 G2]; auto; [discriminate|].
      rewrite E1 in E. cbn [bind] in E.
      destruct (fuel_big x s l r' d b) as [F1 F2].
      destruct (rotate_avl (nd_fuel (Nd x s l r' d b)) x s l r' d b F2) as [t2 [K1 [K2 [K3 [K4 K5]]]]]; auto.
      { apply calm_node; split; auto. split; auto. eapply inserted_calm; eauto. }
      { lia. }
      rewrite K1 in E; injection E as <-. split; [apply K2|].
      cbn [height] in *. set (hr := 1 + Z.max (height lr) (height rr)) in *. clearbody hr.
      destruct (Z.le_gt_cases (Z.abs (height r' - height l)) 1); [rewrite K5 in * by auto|]; lia.
  - destruct l as [|xr sr lr rr dr br].
    + cbn [is_nil] in E. injection E as <-. simpl in *. pose proof (height_nonneg r). repeat split; auto; lia.
    + replace (is_nil (Nd xr sr lr rr dr br)) with false in E by reflexivity.
      destruct (nd_add_ok (Nd xr sr lr rr dr br) i) as [r' [E1 [E2 E3]]]; auto; [discriminate|].
      destruct (IHl i) with (t' := r') as [G1 G2]; auto; [discriminate|].
      rewrite E1 in E. cbn [bind] in E.
      destruct (fuel_big x s r' r d b) as [F1 F2].
      destruct (rotate_avl (nd_fuel (Nd x s r' r d b)) x s r' r d b F2) as [t2 [K1 [K2 [K3 [K4 K5]]]]]; auto.
      { apply calm_node; split; auto. eapply inserted_calm; eauto. }
      { lia. }
      rewrite K1 in E; injection E as <-. split; [apply K2|].
      cbn [height] in *. set (hr := 1 + Z.max (height lr) (height rr)) in *. clearbody hr.
      destruct (Z.le_gt_cases (Z.abs (height r - height r')) 1); [rewrite K5 in * by auto|]; lia.
Qed.

(** ** remove / discard *)
Lemma remove_helper_ordinary : forall t f i sr, t <> Nil -> (nd_size t <= f)%nat -> ordinary i ->
  nd_remove_helper f t i sr = if sr then Err ValueError else Ok (t, true).
Proof.
  induction t as [|x s l IHl r IHr d b]; intros f i sr Hn Hf Hi; [congruence|].
  destruct f as [|f]; [simpl in Hf; lia|]. cbn [nd_remove_helper].
  unfold center_hit. rewrite ordinary_no_hit by auto. cbn [nd_size] in Hf.
  destruct (hit_branch x i).
  - destruct r; [destruct sr; reflexivity|].
    replace (is_nil _) with false by reflexivity. rewrite IHr; auto; try discriminate; try lia.
    destruct sr; reflexivity.
  - destruct l; [destruct sr; reflexivity|].
    replace (is_nil _) with false by reflexivity. rewrite IHl; auto; try discriminate; try lia.
    destruct sr; reflexivity.
Qed.
Lemma nd_remove_ordinary : forall t i, t <> Nil -> ordinary i -> nd_remove t i = Err ValueError.
Proof.
  intros t i Hn Hi. unfold nd_remove. rewrite remove_helper_ordinary; auto. unfold nd_fuel; lia.
Qed.
Lemma nd_discard_ordinary : forall t i, t <> Nil -> ordinary i -> nd_discard t i = Ok t.
Proof.
  intros t i Hn Hi. unfold nd_discard. rewrite remove_helper_ordinary; auto. unfold nd_fuel; lia.
Qed.

(** ** from_sorted *)
Lemma set_mem_In : forall i s, set_mem i s = true <-> In i s.
Proof.
  intros; unfold set_mem. rewrite existsb_exists. split.
  - intros [k [H1 H2]]. apply f_eqb_eq in H2; subst; auto.
  - intro H; exists i; split; auto. apply f_eqb_eq; auto.
Qed.
Lemma set_update_nodup : forall new s, NoDup s -> NoDup (set_update s new) /\
  (forall k, In k (set_update s new) <-> In k s \/ In k new) /\
  (NoDup (s ++ new) -> set_update s new = s ++ new).
Proof.
  unfold set_update; induction new as [|i new IH]; intros s Hs; simpl.
  - rewrite app_nil_r. repeat split; auto; tauto.
  - unfold set_add at 2 4 6. destruct (set_mem i s) eqn:E.
    + apply set_mem_In in E. destruct (IH s Hs) as [H1 [H2 H3]].
      split; auto. split.
      * intro k; rewrite H2. intuition (subst; auto).
      * intro N. exfalso. apply NoDup_remove_2 in N. apply N, in_or_app; auto.
    + assert (E' : ~ In i s) by (rewrite <- set_mem_In; congruence).
      destruct (IH (s ++ [i])) as [H1 [H2 H3]].
      { rewrite <- rev_involutive. apply NoDup_rev. rewrite rev_app_distr. simpl. constructor.
        - rewrite <- in_rev; auto.
        - apply NoDup_rev; auto. }
      split; auto. split.
      * intro k; rewrite H2, in_app_iff; simpl; tauto.
      * intro N. rewrite H3; rewrite <- app_assoc; auto.
Qed.
Lemma set_update_nil : forall l, NoDup l -> set_update [] l = l.
Proof. intros l H. apply (set_update_nodup l []); auto using NoDup_nil. Qed.

Lemma filter_le : forall {A} (f : A -> bool) l, (List.length (filter f l) <= List.length l)%nat.
Proof. induction l; simpl; auto. destruct (f a); simpl; lia. Qed.
Lemma filter_lt : forall {A} (f : A -> bool) l x, In x l -> f x = false ->
  (List.length (filter f l) < List.length l)%nat.
Proof.
  induction l; simpl; intros x H E; [contradiction|]. destruct H as [->|H].
  - rewrite E. pose proof (filter_le f l). lia.
  - specialize (IHl x H E). destruct (f a); simpl; lia.
Qed.
Lemma filter3_perm : forall {A} (p q : A -> bool) l,
  Permutation (filter (fun k => negb (p k) && q k) l ++ filter (fun k => negb (p k) && negb (q k)) l ++ filter p l) l.
Proof.
  induction l as [|a l IH]; simpl; auto. destruct (p a), (q a); simpl.
  - rewrite app_assoc. symmetry. rewrite <- IH at 1. rewrite app_assoc. apply Permutation_middle.
  - rewrite app_assoc. symmetry. rewrite <- IH at 1. rewrite app_assoc. apply Permutation_middle.
  - constructor; auto.
  - symmetry. rewrite <- IH at 1. apply Permutation_middle.
Qed.

Lemma from_sorted_ok : forall f ivs, (List.length ivs < f)%nat -> NoDup ivs ->
  (forall i, In i ivs -> ordinary i) ->
  exists t, from_sorted f ivs = Ok t /\ acc t /\ Permutation (nd_elems t) ivs /\
    (forall k, In k (keys t) -> exists i, In i ivs /\ f_begin i = k) /\ StronglySorted Z.le (keys t) /\
    (ivs <> [] -> t <> Nil).
Proof.
  induction f as [|f IH]; intros ivs Hf Hnd Ho; [lia|].
  cbn [from_sorted]. destruct ivs as [|first rest] eqn:Eivs.
  { exists Nil. simpl. repeat split; auto using SSorted_nil; try contradiction; congruence. }
  rewrite <- Eivs in *.
  set (k0 := nth (List.length ivs / 2) ivs first). set (c := f_begin k0).
  assert (Hk0 : In k0 ivs).
  { apply nth_In. apply Nat.div_lt; [|lia]. subst ivs; simpl; lia. }
  set (p := fun k => c <? f_begin k). set (q := fun k => zclose (f_end k) c).
  change (filter (fun k => c <? f_begin k) ivs) with (filter p ivs).
  change (filter (fun k => negb (c <? f_begin k) && zclose (f_end k) c) ivs)
    with (filter (fun k => negb (p k) && q k) ivs).
  change (filter (fun k => negb (c <? f_begin k) && negb (zclose (f_end k) c)) ivs)
    with (filter (fun k => negb (p k) && negb (q k)) ivs).
  assert (P0 : p k0 = false) by (unfold p, c; apply Z.ltb_irrefl).
  assert (Q0 : q k0 = false).
  { unfold q, c. apply zclose_near_false. intro N. apply near_sym in N.
    apply (ordinary_not_near k0); auto. }
  destruct (IH (filter (fun k => negb (p k) && q k) ivs)) as [l [L1 [L2 [L3 [L4 [L5 L6]]]]]].
  { assert (X := filter_lt (fun k => negb (p k) && q k) ivs k0 Hk0). cbv beta in X. rewrite P0, Q0 in X.
    specialize (X eq_refl). lia. }
  { apply NoDup_filter; auto. }
  { intros i Hi; apply filter_In in Hi; apply Ho; tauto. }
  destruct (IH (filter p ivs)) as [r [R1 [R2 [R3 [R4 [R5 R6]]]]]].
  { assert (X := filter_lt p ivs k0 Hk0 P0). lia. }
  { apply NoDup_filter; auto. }
  { intros i Hi; apply filter_In in Hi; apply Ho; tauto. }
  rewrite L1, R1. cbn [bind].
  assert (Hcn : NoDup (filter (fun k => negb (p k) && negb (q k)) ivs)) by (apply NoDup_filter; auto).
  rewrite set_update_nil by auto.
  set (ctr := filter (fun k => negb (p k) && negb (q k)) ivs) in *.
  assert (Hcalm : calm (Nd c ctr l r 0 0)).
  { apply calm_node. split; [|split].
    - intros i Hi. eapply Permutation_in in Hi; [|exact L3]. apply filter_In in Hi; apply Ho; tauto.
    - intros i Hi. eapply Permutation_in in Hi; [|exact R3]. apply filter_In in Hi; apply Ho; tauto.
    - intros i Hi. apply filter_In in Hi; apply Ho; tauto. }
  destruct (fuel_big c ctr l r 0 0) as [F1 F2].
  destruct (rotate_ok _ c ctr l r 0 0 F1) as [t [T1 [T2 T3]]]; auto.
  exists t. split; auto. split; auto. split; [|split; [|split]].
  - rewrite elems_inorder, T3, <- elems_inorder. cbn [nd_elems]. rewrite L3, R3. apply filter3_perm.
  - intros k Hk. rewrite keys_inorder, T3, <- keys_inorder in Hk. cbn [keys] in Hk.
    apply in_app_iff in Hk as [Hk|[<-|Hk]].
    + destruct (L4 _ Hk) as [i [I1 I2]]. apply filter_In in I1. exists i; tauto.
    + exists k0; auto.
    + destruct (R4 _ Hk) as [i [I1 I2]]. apply filter_In in I1. exists i; tauto.
  - rewrite keys_inorder, T3, <- keys_inorder. cbn [keys]. apply SS_app. split; auto. split.
    + apply SS_cons; split; auto. intros k Hk. destruct (R4 _ Hk) as [i [I1 I2]].
      apply filter_In in I1 as [_ I1]. unfold p in I1. apply Z.ltb_lt in I1. lia.
    + intros a b' Ha Hb'. destruct (L4 _ Ha) as [i [I1 I2]].
      apply filter_In in I1 as [_ I1]. unfold p in I1. apply andb_true_iff in I1 as [I1 _].
      apply negb_true_iff, Z.ltb_ge in I1.
      destruct Hb' as [<-|Hb']; [lia|]. destruct (R4 _ Hb') as [j [J1 J2]].
      apply filter_In in J1 as [_ J1]. unfold p in J1. apply Z.ltb_lt in J1. lia.
  - intros _ ->. apply (f_equal (@List.length _)) in T3. simpl in T3. rewrite app_length in T3; simpl in T3; lia.
Qed.

Lemma py_sort_nodup : forall l : list fiv, NoDup l -> NoDup (py_sort f_ltb l).
Proof. intros l H. eapply Permutation_NoDup; [|exact H]. apply py_sort_perm. Qed.

Lemma from_intervals_ok : forall ivs, NoDup ivs -> (forall i, In i ivs -> ordinary i) ->
  exists t, from_intervals ivs = Ok t /\ acc t /\ Permutation (nd_elems t) ivs /\
    StronglySorted Z.le (keys t) /\ (ivs <> [] -> t <> Nil).
Proof.
  intros ivs Hn Ho. unfold from_intervals.
  assert (P : Permutation (py_sort f_ltb ivs) ivs) by (symmetry; apply py_sort_perm).
  destruct (from_sorted_ok (S (List.length ivs)) (py_sort f_ltb ivs)) as [t [H1 [H2 [H3 [H4 [H5 H6]]]]]].
  - rewrite (Permutation_length P). lia.
  - apply py_sort_nodup; auto.
  - intros i Hi; apply Ho. eapply Permutation_in; eauto.
  - exists t; split; auto. split; auto. split; [rewrite H3; auto|]. split; auto.
    intros Hne; apply H6. intro E. rewrite E in P. apply Permutation_nil in P; auto.
Qed.
