(** Lemmas about reading notes from JSON. *)
From Coq Require Import String Lia.
From Verif Require Import PyBase L_Base M_Note L_Note M_Chord L_Chord M_NoteJson S_NoteJson.
Open Scope list_scope.
Open Scope Z_scope.

Definition SR := String.eqb_spec.
Section JvInd.
Variable (P : jv -> Prop).
Hypothesis Hleaf : forall v, (forall l, v <> JList l) -> (forall o, v <> JObj o) -> P v.
Hypothesis Hlist : forall l, (forall x, In x l -> P x) -> P (JList l).
Hypothesis Hobj : forall o, (forall k x, In (k, x) o -> P x) -> P (JObj o).
Fixpoint jv_all (v : jv) : P v.
Proof.
  destruct v as [|b|z|q|s|l|o|n]; try (apply Hleaf; intros; discriminate).
  - apply Hlist. induction l as [|a l IH]; intros x X; [destruct X|]. destruct X as [<-|X]; [apply jv_all|apply IH; exact X].
  - apply Hobj. induction o as [|[k0 a] o IH]; intros k x X; [destruct X|]. destruct X as [X|X]; [injection X as <- <-; apply jv_all|apply (IH k x X)].
Qed.
End JvInd.

Section D.
Variable bad : list (string * jv) -> res jv.
Definition dec_list : list jv -> res (list jv) :=
  fix go l := match l with [] => Ok [] | x :: r => bind (decode bad x) (fun y => bind (go r) (fun s => Ok (y :: s))) end.
Definition dec_obj : list (string * jv) -> res (list (string * jv)) :=
  fix go o := match o with [] => Ok [] | (k, x) :: r => bind (decode bad x) (fun y => bind (go r) (fun s => Ok ((k, y) :: s))) end.
Lemma dec_list_eq : forall l, decode bad (JList l) = bind (dec_list l) (fun l' => Ok (JList l')).
Proof. reflexivity. Qed.
Lemma dec_obj_eq : forall o, decode bad (JObj o) = bind (dec_obj o) (fun o' => object_hook bad (dict_of o')).
Proof. reflexivity. Qed.
Lemma dec_leaf : forall v, (forall l, v <> JList l) -> (forall o, v <> JObj o) -> decode bad v = Ok v.
Proof. intros v H1 H2. destruct v as [|b|z|q|s|l|o|n]; try reflexivity; [destruct (H1 l)|destruct (H2 o)]; reflexivity. Qed.
Lemma dec_list_ok : forall l l', dec_list l = Ok l' <-> Forall2 (fun x y => decode bad x = Ok y) l l'.
Proof.
  induction l as [|x l IH]; intro l'; cbn [dec_list].
  - split; intro H; [apply Ok_inj in H; subst; constructor|inversion H; reflexivity].
  - fold dec_list. split; intro H.
    + destruct (decode bad x) as [y|e] eqn:D; cbn [bind] in H; [|discriminate]. destruct (dec_list l) as [w|e] eqn:W; cbn [bind] in H; [|discriminate]. apply Ok_inj in H. subst l'. constructor; auto. apply IH. reflexivity.
    + inversion H as [|x' y l0 w D W]; subst. rewrite D. cbn [bind]. apply IH in W. rewrite W. reflexivity.
Qed.
Lemma dec_list_err : forall l e, dec_list l = Err e <-> exists a x b, l = a ++ x :: b /\ (forall y, In y a -> exists w, decode bad y = Ok w) /\ decode bad x = Err e.
Proof.
  induction l as [|x l IH]; intro e; cbn [dec_list].
  - split; [discriminate|]. intros (a & x & b & H & _). destruct a; discriminate.
  - fold dec_list. split; intro H.
    + destruct (decode bad x) as [y|e'] eqn:D; cbn [bind] in H.
      * destruct (dec_list l) as [w|e'] eqn:W; cbn [bind] in H; [discriminate|]. assert (e' = e) by congruence. subst e'. destruct (proj1 (IH e) eq_refl) as (a & z & b & -> & A & Z0).
        exists (x :: a), z, b. split; auto. split; auto. intros v [<-|V]; eauto.
      * exists [], x, l. assert (e' = e) by congruence. subst. split; auto. split; auto. intros v [].
    + destruct H as (a & z & b & E & A & Z0). destruct a as [|a0 a]; cbn [app] in E; injection E as -> ->.
      * rewrite Z0. reflexivity.
      * destruct (A a0 (or_introl eq_refl)) as [w W]. rewrite W. cbn [bind]. rewrite (proj2 (IH e)); [reflexivity|]. exists a, z, b. split; auto. split; auto. intros y Y. apply A. right; auto.
Qed.
Lemma dec_obj_ok : forall o o', dec_obj o = Ok o' <-> Forall2 (fun a b => fst a = fst b /\ decode bad (snd a) = Ok (snd b)) o o'.
Proof.
  induction o as [|[k x] o IH]; intro o'; cbn [dec_obj].
  - split; intro H; [apply Ok_inj in H; subst; constructor|inversion H; reflexivity].
  - fold dec_obj. split; intro H.
    + destruct (decode bad x) as [y|e] eqn:D; cbn [bind] in H; [|discriminate]. destruct (dec_obj o) as [w|e] eqn:W; cbn [bind] in H; [|discriminate]. apply Ok_inj in H. subst o'. constructor; [auto|]. apply IH. reflexivity.
    + inversion H as [|x' [k2 y] l0 w [D0 D] W]; subst. cbn [fst snd] in *. subst k2. rewrite D. cbn [bind]. apply IH in W. rewrite W. reflexivity.
Qed.
Lemma dec_obj_err : forall o e, dec_obj o = Err e <-> exists a k x b, o = a ++ (k, x) :: b /\ (forall k' y, In (k', y) a -> exists w, decode bad y = Ok w) /\ decode bad x = Err e.
Proof.
  induction o as [|[k x] o IH]; intro e; cbn [dec_obj].
  - split; [discriminate|]. intros (a & k & x & b & H & _). destruct a; discriminate.
  - fold dec_obj. split; intro H.
    + destruct (decode bad x) as [y|e'] eqn:D; cbn [bind] in H.
      * destruct (dec_obj o) as [w|e'] eqn:W; cbn [bind] in H; [discriminate|]. assert (e' = e) by congruence. subst e'. destruct (proj1 (IH e) eq_refl) as (a & k2 & z & b & -> & A & Z0).
        exists ((k, x) :: a), k2, z, b. split; auto. split; auto. intros k' v [V|V]; [injection V as <- <-; eauto|eauto].
      * exists [], k, x, o. assert (e' = e) by congruence. subst. split; auto. split; auto. intros k' v [].
    + destruct H as (a & k2 & z & b & E & A & Z0). destruct a as [|[k0 a0] a]; cbn [app] in E; injection E as -> -> ->.
      * rewrite Z0. reflexivity.
      * destruct (A k0 a0 (or_introl eq_refl)) as [w W]. rewrite W. cbn [bind]. rewrite (proj2 (IH e)); [reflexivity|]. exists a, k2, z, b. split; auto. split; auto. intros k' y Y. apply (A k'). right; auto.
Qed.
End D.

Lemma dict_of_acc : forall (l d : list (string * jv)), NoDup (map fst (d ++ l)) -> fold_left (fun d kv => dict_set String.eqb (fst kv) (snd kv) d) l d = d ++ l.
Proof.
  induction l as [|[k x] l IH]; intros d N; cbn [fold_left]; [rewrite app_nil_r; reflexivity|]. cbn [fst snd]. rewrite (dict_set_new String.eqb SR).
  - rewrite IH; rewrite <- app_assoc; [reflexivity|exact N].
  - apply (dict_get_None String.eqb SR). rewrite map_app in N. cbn [map fst] in N. intro I. apply NoDup_remove_2 in N. apply N. apply in_app_iff. left; auto.
Qed.
Lemma dict_of_same : forall l, NoDup (map fst l) -> dict_of l = l.
Proof. intros l N. unfold dict_of. rewrite dict_of_acc; auto. Qed.
Lemma dict_of_keys : forall (l d : list (string * jv)) k, In k (map fst (fold_left (fun d kv => dict_set String.eqb (fst kv) (snd kv) d) l d)) <-> In k (map fst d) \/ In k (map fst l).
Proof.
  induction l as [|[k0 x] l IH]; intros d k; cbn [fold_left map fst snd]; [split; [auto|intros [H|[]]; auto]|]. rewrite IH. rewrite (dict_set_keys String.eqb SR).
  destruct (dict_get String.eqb k0 d) as [v|] eqn:G.
  - assert (I : In k0 (map fst d)) by (apply dict_get_In in G; [apply (in_map fst) in G; exact G|apply SR]). cbn [In]. split; [tauto|]. intros [H|[<-|H]]; auto.
  - rewrite in_app_iff. cbn [In]. tauto.
Qed.
Lemma dict_of_vals : forall (l d : list (string * jv)), NoDup (map fst d) -> NoDup (map fst (fold_left (fun d kv => dict_set String.eqb (fst kv) (snd kv) d) l d)) /\
  forall k x, In (k, x) (fold_left (fun d kv => dict_set String.eqb (fst kv) (snd kv) d) l d) -> In (k, x) d \/ In (k, x) l.
Proof.
  induction l as [|[k0 x0] l IH]; intros d N; cbn [fold_left fst snd]; [auto|]. destruct (IH (dict_set String.eqb k0 x0 d)) as [I1 I2]; [apply dict_set_NoDup; auto using SR|]. split; auto.
  intros k x H. destruct (I2 k x H) as [H2|H2]; [|right; right; auto]. apply (dict_set_In String.eqb SR) in H2 as [[-> ->]|[_ H2]]; auto. right; left; auto.
Qed.
