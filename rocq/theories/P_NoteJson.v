(** Property C207: notes in JSON.  Specification: S_NoteJson. *)
From Coq Require Import String Lia.
From Verif Require Import PyBase L_Base M_Note L_Note M_Chord L_Chord M_NoteJson S_NoteJson L_NoteJson.
Open Scope list_scope.
Open Scope Z_scope.

(** C207: a value without the marker comes back unchanged. *)
Theorem C207_unchanged : forall bad v, tidy v -> unmarked v -> decode bad v = Ok v.
Proof.
  intros bad v. induction v as [v H1 H2|l IH|o IH] using jv_all; intros T U.
  - apply dec_leaf; auto.
  - rewrite dec_list_eq. assert (E : dec_list bad l = Ok l); [|rewrite E; reflexivity]. apply dec_list_ok.
    inversion T as [l0 TL| |v0 TL]; [|destruct (TL l eq_refl)]. inversion U as [l1 UL| |v1 UL]; [|destruct (UL l eq_refl)]. subst. clear - IH TL UL.
    induction l as [|x l IHl]; constructor; [apply IH; [left|apply TL; left|apply UL; left]; auto|]. apply IHl; intros; [apply IH; [right| |]; auto|apply TL; right; auto|apply UL; right; auto].
  - rewrite dec_obj_eq. inversion T as [|o0 ND TO|v0 X TL]; [|destruct (TL o eq_refl)]. inversion U as [|o1 NM UO|v1 X UL]; [|destruct (UL o eq_refl)]. subst.
    assert (E : dec_obj bad o = Ok o).
    { apply dec_obj_ok. clear - IH TO UO. induction o as [|[k x] o IHo]; constructor; [split; auto; apply (IH k); [left|apply (TO k); left|apply (UO k); left]; auto|].
      apply IHo; [intros k' x' I T' U'; apply (IH k'); [right| |]; auto|intros k' x' I; apply (TO k'); right; auto|intros k' x' I; apply (UO k'); right; auto]. }
    rewrite E. cbn [bind]. rewrite dict_of_same by auto. unfold object_hook. destruct (dict_get String.eqb "__MidiNote__" o) as [w|] eqn:G; auto.
    exfalso. apply NM. apply (dict_get_In String.eqb SR) in G. apply (in_map fst) in G. exact G.
Qed.
Print Assumptions C207_unchanged.

(** C207: no object with the marker is left in what comes back (but where the constructor was called with
    arguments of wrong types). *)
Theorem C207_no_marker : forall bad v w, (forall d x, bad d = Ok x -> unmarked x) -> decode bad v = Ok w -> unmarked w.
Proof.
  intros bad v w B. revert w. induction v as [v H1 H2|l IH|o IH] using jv_all; intros w D.
  - rewrite dec_leaf in D by auto. apply Ok_inj in D. subst. apply un_leaf; auto.
  - rewrite dec_list_eq in D. destruct (dec_list bad l) as [l'|e] eqn:E; cbn [bind] in D; [|discriminate]. apply Ok_inj in D. subst w. apply dec_list_ok in E. constructor. clear - IH E.
    induction E as [|x y l l' D E IHE]; intros z I; [destruct I|]. destruct I as [<-|I]; [apply (IH x); [left|]; auto|]. apply IHE; auto. intros; apply (IH x0); [right|]; auto.
  - rewrite dec_obj_eq in D. destruct (dec_obj bad o) as [o'|e] eqn:E; cbn [bind] in D; [|discriminate]. apply dec_obj_ok in E.
    assert (UO : forall k x, In (k, x) o' -> unmarked x).
    { clear - IH E. induction E as [|[k x] [k' y] o o' [D0 D] E IHE]; intros kk z I; [destruct I|]. destruct I as [I|I]; [injection I as <- <-; apply (IH k x); [left|]; auto|].
      apply (IHE (fun k x I' => IH k x (or_intror I')) kk z I). }
    destruct (dict_of_vals o' [] ltac:(constructor)) as [_ V]. fold (dict_of o') in V. unfold object_hook in D. destruct (dict_get String.eqb "__MidiNote__" (dict_of o')) as [m|] eqn:G.
    + destruct (dict_get String.eqb "data" (dict_of o')) as [dd|] eqn:GD; [|discriminate]. destruct dd as [|b|z|q|s|l|d|n]; try discriminate. unfold make_note in D.
      assert (LF : forall n, unmarked (JNote n)) by (intro n; apply un_leaf; intros; discriminate).
      repeat match type of D with context [if ?c then _ else _] => destruct c; try discriminate | context [match ?c with Some _ => _ | None => _ end] => destruct c; try discriminate; try (eapply B; exact D) end.
      destruct (n_new _) as [n|e]; cbn [bind] in D; [|discriminate]. apply Ok_inj in D. subst w. apply LF.
    + apply Ok_inj in D. subst w. apply un_obj.
      * apply (dict_get_None String.eqb SR) in G. exact G.
      * intros k x I. destruct (V k x I) as [[]|I2]. eapply UO; eauto.
Qed.
Print Assumptions C207_no_marker.

(** C207: lists and objects without the marker are read member by member; the first member that fails decides. *)
Theorem C207_inside : forall bad l o,
  (forall w, decode bad (JList l) = Ok w <-> exists l', w = JList l' /\ Forall2 (fun x y => decode bad x = Ok y) l l') /\
  (forall e, decode bad (JList l) = Err e <-> exists a x b, l = a ++ x :: b /\ (forall y, In y a -> exists w, decode bad y = Ok w) /\ decode bad x = Err e) /\
  (NoDup (map fst o) -> ~ In marker (map fst o) ->
   (forall w, decode bad (JObj o) = Ok w <-> exists o', w = JObj o' /\ Forall2 (fun a b => fst a = fst b /\ decode bad (snd a) = Ok (snd b)) o o') /\
   (forall e, decode bad (JObj o) = Err e <-> exists a k x b, o = a ++ (k, x) :: b /\ (forall k' y, In (k', y) a -> exists w, decode bad y = Ok w) /\ decode bad x = Err e)).
Proof.
  intros bad l o. rewrite dec_list_eq. split; [|split].
  - intro w. split.
    + intro H. destruct (dec_list bad l) as [l'|e] eqn:E; cbn [bind] in H; [|discriminate]. apply Ok_inj in H. subst w. exists l'. split; auto. apply dec_list_ok; auto.
    + intros (l' & -> & F). apply dec_list_ok in F. rewrite F. reflexivity.
  - intro e. rewrite <- dec_list_err. destruct (dec_list bad l) as [l'|e']; cbn [bind]; split; congruence.
  - intros ND NM. rewrite dec_obj_eq.
    assert (HK : forall o', dec_obj bad o = Ok o' -> object_hook bad (dict_of o') = Ok (JObj o')).
    { intros o' E. apply dec_obj_ok in E. assert (KS : map fst o' = map fst o) by (clear - E; induction E as [|a b o o' [D _] E IH]; cbn [map]; auto; rewrite IH, D; auto).
      rewrite dict_of_same by (rewrite KS; auto). unfold object_hook. destruct (dict_get String.eqb "__MidiNote__" o') as [m|] eqn:G; auto. exfalso. apply NM. rewrite <- KS. apply (dict_get_In String.eqb SR) in G. apply (in_map fst) in G. exact G. }
    split.
    + intro w. split.
      * intro H. destruct (dec_obj bad o) as [o'|e] eqn:E; cbn [bind] in H; [|discriminate]. rewrite HK in H by auto. apply Ok_inj in H. subst w. exists o'. split; auto. apply dec_obj_ok; auto.
      * intros (o' & -> & F). apply dec_obj_ok in F. rewrite F. cbn [bind]. apply HK; auto.
    + intro e. rewrite <- dec_obj_err. destruct (dec_obj bad o) as [o'|e'] eqn:E; cbn [bind]; [rewrite (HK o' eq_refl)|]; split; congruence.
Qed.
Print Assumptions C207_inside.

Lemma params_eq : parameters = note_keys.
Proof. reflexivity. Qed.
Lemma says_get : forall A d k (fits : jv -> A -> Prop) (conv : jv -> option A) (dflt x : A), NoDup (map fst d) -> (forall v y, fits v y -> conv v = Some y) -> says d k fits (Some dflt) x -> kwarg conv dflt k d = Some x.
Proof.
  intros A d k fits conv dflt x ND C [(v & I & F)|[N E]]; unfold kwarg.
  - rewrite (dict_In_get String.eqb SR _ _ _ ND I). auto.
  - rewrite (proj2 (dict_get_None String.eqb SR d k)); auto.
Qed.
Lemma says_req : forall A d k (fits : jv -> A -> Prop) (conv : jv -> option A) (x : A), NoDup (map fst d) -> (forall v y, fits v y -> conv v = Some y) -> says d k fits None x -> exists v, dict_get String.eqb k d = Some v /\ conv v = Some x.
Proof. intros A d k fits conv x ND C [(v & I & F)|[_ E]]; [|discriminate]. exists v. rewrite (dict_In_get String.eqb SR _ _ _ ND I). auto. Qed.
Lemma described : forall bad d n, describes d n -> make_note bad d = match n_new n with Ok n' => Ok (JNote n') | Err e => Err e end.
Proof.
  intros bad d n (ND & KS & H1 & H2 & H3 & H4 & H5 & H6 & H7 & H8 & H9 & H10 & H11 & H12).
  assert (CI : forall v z, int_fits v z -> as_int v = Some z) by (intros v z ->; reflexivity).
  assert (CN : forall v q, num_fits v q -> as_num v = Some q) by (intros v q [-> |(z & -> & ->)]; reflexivity).
  assert (CB : forall v b, bool_fits v b -> as_bool v = Some b) by (intros v b ->; reflexivity).
  unfold make_note. assert (X : existsb (fun kv : string * jv => negb (existsb (String.eqb (fst kv)) note_keys)) d = false).
  { apply not_true_is_false. intro X. apply existsb_exists in X as [[k v] [I X]]. cbn [fst] in X. apply negb_true_iff in X. assert (K : In k note_keys) by (rewrite <- params_eq; apply KS; apply (in_map fst) in I; exact I).
    assert (Y : existsb (String.eqb k) note_keys = true) by (apply existsb_exists; exists k; split; auto; apply String.eqb_refl). congruence. }
  rewrite X. clear X.
  destruct (says_req _ _ _ _ as_int _ ND CI H1) as (v1 & -> & E1). destruct (says_req _ _ _ _ as_num _ ND CN H2) as (v2 & -> & E2). destruct (says_req _ _ _ _ as_num _ ND CN H3) as (v3 & -> & E3). rewrite E1, E2, E3.
  rewrite (says_get _ _ _ _ as_int _ _ ND CI H4), (says_get _ _ _ _ as_int _ _ ND CI H5), (says_get _ _ _ _ as_int _ _ ND CI H6), (says_get _ _ _ _ as_num _ _ ND CN H7), (says_get _ _ _ _ as_num _ _ ND CN H8),
    (says_get _ _ _ _ as_int _ _ ND CI H9), (says_get _ _ _ _ as_int _ _ ND CI H10), (says_get _ _ _ _ as_int _ _ ND CI H11), (says_get _ _ _ _ as_bool _ _ ND CB H12).
  replace (mkN _ _ _ _ _ _ _ _ _ _ _ _) with n by (destruct n; reflexivity). destruct (n_new n); reflexivity.
Qed.
(** The members of an object that read well, by key. *)
Lemma members : forall bad o, NoDup (map fst o) -> (forall k x, In (k, x) o -> exists y, decode bad x = Ok y) ->
  exists o', decode bad (JObj o) = object_hook bad o' /\ NoDup (map fst o') /\ map fst o' = map fst o /\ (forall k x, In (k, x) o -> exists y, decode bad x = Ok y /\ In (k, y) o').
Proof.
  intros bad o ND H. assert (E : exists o', Forall2 (fun a b => fst a = fst b /\ decode bad (snd a) = Ok (snd b)) o o').
  { clear ND. induction o as [|[k x] o IH]; [exists []; constructor|]. destruct (H k x (or_introl eq_refl)) as [y Y]. destruct IH as [o' F]; [intros k' x' I; apply (H k'); right; auto|]. exists ((k, y) :: o'). constructor; auto. }
  destruct E as [o' F]. assert (KS : map fst o' = map fst o) by (clear - F; induction F as [|a b o o' [D _] E IH]; cbn [map]; auto; rewrite IH, D; auto).
  exists o'. rewrite dec_obj_eq. rewrite (proj2 (dec_obj_ok bad o o') F). cbn [bind]. rewrite dict_of_same by (rewrite KS; auto). split; auto. split; [rewrite KS; auto|]. split; auto.
  intros k x I. clear - F I. induction F as [|[k1 x1] [k2 y] o o' [D0 D] F IH]; [destruct I|]. cbn [fst snd] in *. destruct I as [I|I].
  - injection I as E1 E2. subst. exists y. split; auto. left; auto.
  - destruct (IH I) as (z & Z1 & Z2). exists z. split; auto. right; auto.
Qed.
Lemma scalar : forall d n k x, describes d n -> In (k, x) d -> (forall l, x <> JList l) /\ (forall o, x <> JObj o).
Proof.
  intros d n k x (NDD & KK & H1 & H2 & H3 & H4 & H5 & H6 & H7 & H8 & H9 & H10 & H11 & H12) I. assert (KN : In k note_keys) by (rewrite <- params_eq; apply KK; apply (in_map fst) in I; exact I).
  assert (IN : forall A (fits : jv -> A -> Prop) dflt (v : A), says d k fits dflt v -> fits x v).
  { intros A fits dflt v [(w & W & F)|[N _]]; [|exfalso; apply N; apply (in_map fst) in I; exact I]. assert (w = x) by (apply (dict_In_get String.eqb SR _ _ _ NDD) in W; apply (dict_In_get String.eqb SR _ _ _ NDD) in I; congruence). subst; auto. }
  assert (CI : forall z, int_fits x z -> (forall l, x <> JList l) /\ (forall o, x <> JObj o)) by (intros z HH; unfold int_fits in HH; subst x; split; intros ?; discriminate).
  assert (CN : forall q, num_fits x q -> (forall l, x <> JList l) /\ (forall o, x <> JObj o)) by (intros q [-> |(z & -> & _)]; split; intros ?; discriminate).
  assert (CB : forall b, bool_fits x b -> (forall l, x <> JList l) /\ (forall o, x <> JObj o)) by (intros b HH; unfold bool_fits in HH; subst x; split; intros ?; discriminate).
  unfold note_keys in KN. cbn [In] in KN.
  repeat (destruct KN as [<-|KN]; [match goal with [ HH : says d ?kk _ _ _ |- _ ] => solve [apply IN in HH; eauto] end|]). destruct KN.
Qed.
Lemma data_same : forall bad d n, describes d n -> decode bad (JObj d) = Ok (JObj d).
Proof.
  intros bad d n DS. apply C207_unchanged.
  - apply tidy_obj; [apply DS|]. intros k x I. destruct (scalar d n k x DS I). apply tidy_leaf; auto.
  - apply un_obj.
    + intro I. destruct DS as (_ & KK & _). apply KK in I. unfold parameters, marker in I. cbn [In] in I. repeat (destruct I as [I|I]; [discriminate|]). destruct I.
    + intros k x I. destruct (scalar d n k x DS I). apply un_leaf; auto.
Qed.
(** C207: an object with the marker, whatever stands under it, becomes the note its data describe; arguments not
    given have their defaults.  What the constructor refuses, reading refuses the same way. *)
Theorem C207_note : forall bad o m d n, NoDup (map fst o) -> In (marker, m) o -> In ("data"%string, JObj d) o -> describes d n ->
  (forall k x, In (k, x) o -> exists y, decode bad x = Ok y) ->
  decode bad (JObj o) = match n_new n with Ok n' => Ok (JNote n') | Err e => Err e end.
Proof.
  intros bad o m d n ND M DA DS OK. destruct (members bad o ND OK) as (o' & -> & ND' & KS & V). unfold object_hook.
  destruct (V _ _ M) as (m' & _ & M'). fold marker. rewrite (dict_In_get String.eqb SR _ _ _ ND' M').
  destruct (V _ _ DA) as (y & DY & Y). rewrite (dict_In_get String.eqb SR _ _ _ ND' Y).
  rewrite (data_same bad d n DS) in DY. apply Ok_inj in DY. subst y. apply described; auto.
Qed.
Print Assumptions C207_note.

(** C207: written out with all its fields and read again, a note is the same (the constructor accepts it and does
    not change it), whatever the marker says. *)
Theorem C207_round_trip : forall bad n m, n_new n = Ok n -> (exists y, decode bad m = Ok y) ->
  decode bad (JObj [(marker, m); ("data"%string, JObj (written n))]) = Ok (JNote n).
Proof.
  intros bad n m N [y M]. assert (DS : describes (written n) n).
  { assert (ND : NoDup (map fst (written n))). { cbn. repeat (constructor; [cbn [In]; intro I; repeat (destruct I as [I|I]; [discriminate|]); destruct I|]). constructor. }
    unfold describes. split; auto. split; [intros k I; exact I|]. unfold says.
    assert (I : forall k v, In (k, v) (written n) -> In (k, v) (written n)) by auto.
    split; [left; exists (JInt (n_pitch n)); split; [cbn; tauto|reflexivity]|]. split; [left; exists (JFloat (n_start n)); split; [cbn; tauto|left; reflexivity]|].
    split; [left; exists (JFloat (n_end n)); split; [cbn; tauto|left; reflexivity]|]. split; [left; exists (JInt (n_program n)); split; [cbn; tauto|reflexivity]|].
    split; [left; exists (JInt (n_instrument n)); split; [cbn; tauto|reflexivity]|]. split; [left; exists (JInt (n_velocity n)); split; [cbn; tauto|reflexivity]|].
    split; [left; exists (JFloat (n_qs n)); split; [cbn; tauto|left; reflexivity]|]. split; [left; exists (JFloat (n_qe n)); split; [cbn; tauto|left; reflexivity]|].
    split; [left; exists (JInt (n_voice n)); split; [cbn; tauto|reflexivity]|]. split; [left; exists (JInt (n_num n)); split; [cbn; tauto|reflexivity]|].
    split; [left; exists (JInt (n_den n)); split; [cbn; tauto|reflexivity]|]. left; exists (JBool (n_drum n)); split; [cbn; tauto|reflexivity]. }
  rewrite (C207_note bad [(marker, m); ("data"%string, JObj (written n))] m (written n) n).
  - rewrite N. reflexivity.
  - constructor; [cbn; intros [I|[]]; discriminate|]. constructor; [intros []|constructor].
  - left; reflexivity.
  - right; left; reflexivity.
  - exact DS.
  - intros k x [I|[I|[]]]; injection I as <- <-; [eauto|]. rewrite (data_same bad _ n DS). eauto.
Qed.
Print Assumptions C207_round_trip.

(** C207: an object with the marker but no data is a KeyError; data that are not an object, or are themselves
    read as a note, an argument MidiNote does not have or a missing pitch, start or end is a TypeError. *)
Theorem C207_errors : forall bad o m, NoDup (map fst o) -> In (marker, m) o -> (forall k x, In (k, x) o -> exists y, decode bad x = Ok y) ->
  (~ In "data"%string (map fst o) -> decode bad (JObj o) = Err KeyError) /\
  (forall x y, In ("data"%string, x) o -> decode bad x = Ok y -> (forall d, y <> JObj d) -> decode bad (JObj o) = Err TypeError) /\
  (forall x d, In ("data"%string, x) o -> decode bad x = Ok (JObj d) ->
     (exists k, In k (map fst d) /\ ~ In k parameters) \/ ~ In "pitch"%string (map fst d) \/ ~ In "start_time"%string (map fst d) \/ ~ In "end_time"%string (map fst d) ->
     decode bad (JObj o) = Err TypeError).
Proof.
  intros bad o m ND M OK. destruct (members bad o ND OK) as (o' & -> & ND' & KS & V). unfold object_hook.
  destruct (V _ _ M) as (m' & _ & M'). fold marker. rewrite (dict_In_get String.eqb SR _ _ _ ND' M'). split; [|split].
  - intro N. rewrite <- KS in N. rewrite (proj2 (dict_get_None String.eqb SR o' _) N). reflexivity.
  - intros x y I D NO. destruct (V _ _ I) as (y' & Y1 & Y2). assert (y' = y) by congruence. subst y'. rewrite (dict_In_get String.eqb SR _ _ _ ND' Y2). destruct y as [|b|z|q|s|l|d|n]; try reflexivity. destruct (NO d eq_refl).
  - intros x d I D H. destruct (V _ _ I) as (y' & Y1 & Y2). assert (y' = JObj d) by congruence. subst y'. rewrite (dict_In_get String.eqb SR _ _ _ ND' Y2). unfold make_note.
    destruct (existsb (fun kv : string * jv => negb (existsb (String.eqb (fst kv)) note_keys)) d) eqn:E; [reflexivity|].
    assert (G : forall k, ~ In k (map fst d) -> dict_get String.eqb k d = None) by (intros k N; apply (dict_get_None String.eqb SR); auto).
    destruct H as [(k & K1 & K2)|[H|[H|H]]].
    + exfalso. apply in_map_iff in K1 as [[k0 v] [K0 K1]]. cbn [fst] in K0. subst k0. assert (X : existsb (fun kv : string * jv => negb (existsb (String.eqb (fst kv)) note_keys)) d = true); [|congruence].
      apply existsb_exists. exists (k, v). split; auto. cbn [fst]. apply negb_true_iff, not_true_is_false. intro Y. apply existsb_exists in Y as [k' [Y1' Y3]]. apply String.eqb_eq in Y3. subst k'. rewrite <- params_eq in Y1'. auto.
    + rewrite (G _ H). reflexivity.
    + rewrite (G _ H). destruct (dict_get String.eqb "pitch" d); reflexivity.
    + rewrite (G _ H). destruct (dict_get String.eqb "pitch" d), (dict_get String.eqb "start_time" d); reflexivity.
Qed.
Print Assumptions C207_errors.

(** The example of the class's documentation inside a list; the marker false; nested data; an unknown argument. *)
Definition doc_data : list (string * jv) := [("pitch"%string, JInt 60); ("start_time"%string, JFloat 0); ("end_time"%string, JFloat 1)].
Definition bad_ex (d : list (string * jv)) : res jv := Err TypeError.
Example C207_case :
  decode bad_ex (JList [JNull; JObj [(marker, JBool true); ("data"%string, JObj doc_data)]]) = Ok (JList [JNull; JNote (mkN 60 127 0 0 0 4 4 false 0 1 (-1) (-1))]) /\
  decode bad_ex (JObj [("data"%string, JObj doc_data); (marker, JBool false)]) = Ok (JNote (mkN 60 127 0 0 0 4 4 false 0 1 (-1) (-1))) /\
  decode bad_ex (JObj [(marker, JNull); ("data"%string, JObj [(marker, JNull); ("data"%string, JObj doc_data)])]) = Err TypeError /\
  decode bad_ex (JObj [(marker, JNull); ("data"%string, JObj (("tempo"%string, JInt 3) :: doc_data))]) = Err TypeError /\
  decode bad_ex (JObj [(marker, JNull)]) = Err KeyError /\
  decode bad_ex (JObj [("a"%string, JInt 1); ("a"%string, JInt 2)]) = Ok (JObj [("a"%string, JInt 2)]) /\
  describes doc_data (mkN 60 127 0 0 0 4 4 false 0 1 (-1) (-1)) /\
  (let n := mkN 61 100 5 2 1 3 8 true (1 # 2) 2 4 8 in n_new n = Ok n) /\ (forall d x, bad_ex d = Ok x -> unmarked x).
Proof.
  split; [vm_compute; reflexivity|]. split; [vm_compute; reflexivity|]. split; [vm_compute; reflexivity|]. split; [vm_compute; reflexivity|]. split; [vm_compute; reflexivity|]. split; [vm_compute; reflexivity|].
  split; [|split; [vm_compute; reflexivity|discriminate]]. unfold describes, says. split; [cbn; repeat (constructor; [cbn [In]; intro I; repeat (destruct I as [I|I]; [discriminate|]); destruct I|]); constructor|].
  split; [intros k I; cbn in I; repeat (destruct I as [<-|I]; [cbn; tauto|]); destruct I|].
  assert (N : forall k, k <> "pitch"%string -> k <> "start_time"%string -> k <> "end_time"%string -> ~ In k (map fst doc_data)) by (intros k A B C I; cbn in I; repeat (destruct I as [I|I]; [congruence|]); destruct I).
  split; [left; exists (JInt 60); split; [cbn; tauto|reflexivity]|]. split; [left; exists (JFloat 0); split; [cbn; tauto|left; reflexivity]|]. split; [left; exists (JFloat 1); split; [cbn; tauto|left; reflexivity]|].
  do 8 (split; [right; split; [apply N; discriminate|reflexivity]|]). right; split; [apply N; discriminate|reflexivity].
Qed.
