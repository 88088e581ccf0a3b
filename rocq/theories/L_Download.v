(** Lemmas for gathering the listed MIDI files. *)
From Coq Require Import Lia.
From Verif Require Import PyBase M_Download S_Download.

Lemma path_eqb_spec : forall a b, path_eqb a b = true <-> a = b.
Proof. intros. unfold path_eqb. destruct (list_eq_dec string_dec a b); split; intro H; congruence. Qed.
Lemma path_eqb_neq : forall a b, a <> b -> path_eqb a b = false.
Proof. intros. unfold path_eqb. destruct (list_eq_dec string_dec a b); congruence. Qed.
Lemma put_same : forall s p c, put s p c p = Some (FFile c).
Proof. intros. unfold put. rewrite (proj2 (path_eqb_spec p p) eq_refl). reflexivity. Qed.
Lemma put_other : forall s p c q, q <> p -> put s p c q = s q.
Proof. intros. unfold put. rewrite path_eqb_neq by exact H. reflexivity. Qed.
Lemma from_dir_source : forall d f, from_dir d f = source d f.
Proof. reflexivity. Qed.
Lemma name_source : forall cwd f, fp_parts f <> [] -> name_of (source cwd f) = base f.
Proof.
  intros cwd f H. unfold name_of, source, base. destruct (fp_abs f); [reflexivity|].
  destruct (exists_last H) as (l & x & ->). rewrite app_assoc, !last_last. reflexivity.
Qed.
Lemma snoc_inj : forall A (l : list A) a b, l ++ [a] = l ++ [b] -> a = b.
Proof. intros A l a b H. apply app_inv_head in H. congruence. Qed.

Lemma usual_put : forall cwd raw s files n c, usual cwd raw s files -> usual cwd raw (put s (raw ++ [n]) c) files.
Proof.
  intros cwd raw s files n c U f Hf. destruct (U f Hf) as (P & (c0 & E) & O & D). repeat split.
  - exact P.
  - exists c0. rewrite put_other by apply O. exact E.
  - exact O.
  - destruct (list_eq_dec string_dec (raw ++ [base f]) (raw ++ [n])) as [e|e]; [rewrite e, put_same; discriminate|rewrite put_other by exact e; exact D].
Qed.
Lemma copy_usual : forall s p dst c, s dst <> Some FDir -> p <> dst -> copy s p dst c = Some (put s dst c).
Proof.
  intros s p dst c H N. unfold copy. assert (E : match s dst with Some FDir => dst ++ [name_of p] | _ => dst end = dst) by (destruct (s dst) as [[]|]; congruence).
  rewrite E. rewrite path_eqb_neq by exact N. destruct (s dst) as [[]|]; congruence.
Qed.
Lemma download_cons : forall cwd raw s f r c, usual cwd raw s (f :: r) -> s (source cwd f) = Some (FFile c) ->
  download cwd raw s (f :: r) = (let '(o, (s', r')) := download cwd raw (put s (raw ++ [base f]) c) r in (o, (s', by_name f :: r'))).
Proof.
  intros cwd raw s f r c U E. destruct (U f (or_introl eq_refl)) as (P & _ & O & D). cbn [download]. rewrite from_dir_source, E.
  rewrite (name_source cwd f P), copy_usual by (auto). reflexivity.
Qed.
Lemma download_usual : forall cwd raw files s, usual cwd raw s files ->
  exists s', download cwd raw s files = (Done, (s', map by_name files)) /\
    (forall q, (forall f, In f files -> q <> raw ++ [base f]) -> s' q = s q) /\
    (forall f, In f files -> exists g c, last_named files f g /\ s (source cwd g) = Some (FFile c) /\ s' (raw ++ [base f]) = Some (FFile c)).
Proof.
  intros cwd raw. induction files as [|f r IH]; intros s U.
  - exists s. repeat split; auto. intros f [].
  - destruct (U f (or_introl eq_refl)) as (P & (c & E) & O & D).
    assert (U1 : usual cwd raw s r) by (intros x Hx; apply U; right; exact Hx).
    destruct (IH _ (usual_put cwd raw s r (base f) c U1)) as (s' & ED & KEEP & LAST).
    exists s'. split; [rewrite (download_cons cwd raw s f r c U E), ED; reflexivity|]. split.
    + intros q H. rewrite KEEP by (intros x Hx; apply H; right; exact Hx). apply put_other. apply H. left. reflexivity.
    + intros x Hx. destruct (in_dec string_dec (base x) (map base r)) as [I|I].
      * apply in_map_iff in I. destruct I as (y & Ey & Hy). destruct (LAST y Hy) as (g & cg & (l1 & l2 & E1 & E2 & E3) & SG & SD).
        exists g, cg. split; [exists (f :: l1), l2; split; [rewrite E1; reflexivity|split; [congruence|intros h Hh; rewrite <- Ey; apply E3, Hh]]|].
        split; [|rewrite <- Ey; exact SD]. rewrite put_other in SG; [exact SG|].
        destruct (U1 g) as (_ & _ & Og & _); [rewrite E1; apply in_app_iff; right; left; reflexivity|apply Og].
      * assert (x = f \/ In x r) as [->|Hr] by (destruct Hx; auto); [|exfalso; apply I, in_map, Hr].
        exists f, c. split; [exists [], r; split; [reflexivity|split; [reflexivity|intros h Hh e; apply I; rewrite <- e; apply in_map, Hh]]|].
        split; [exact E|]. rewrite KEEP by (intros y Hy e; apply snoc_inj in e; apply I; rewrite e; apply in_map, Hy). apply put_same.
Qed.
Lemma download_app : forall cwd raw a s l, usual cwd raw s a -> exists s1, download cwd raw s a = (Done, (s1, map by_name a)) /\
  download cwd raw s (a ++ l) = (let '(o, (s2, l')) := download cwd raw s1 l in (o, (s2, map by_name a ++ l'))).
Proof.
  intros cwd raw. induction a as [|f r IH]; intros s l U.
  - exists s. split; [reflexivity|]. cbn [app map]. destruct (download cwd raw s l) as (o & s2 & l'). reflexivity.
  - destruct (U f (or_introl eq_refl)) as (P & (c & E) & O & D).
    assert (U1 : usual cwd raw s r) by (intros x Hx; apply U; right; exact Hx).
    destruct (IH _ l (usual_put cwd raw s r (base f) c U1)) as (s1 & E1 & E2). exists s1.
    split; [rewrite (download_cons cwd raw s f r c U E), E1; reflexivity|].
    cbn [app]. change (f :: r ++ l) with ((f :: r) ++ l). cbn [download app]. rewrite from_dir_source, E, (name_source cwd f P), copy_usual by auto.
    rewrite E2. destruct (download cwd raw s1 l) as (o & s2 & l'). reflexivity.
Qed.
Lemma gather_skip : forall cwd raw s files, all_there raw s files -> gather cwd raw s files = (Done, (s, files)).
Proof.
  intros cwd raw s files A. unfold gather. replace (forallb _ _) with true; [reflexivity|]. symmetry. apply forallb_forall.
  intros p Hp. apply in_map_iff in Hp. destruct Hp as (f & <- & Hf). specialize (A f Hf). rewrite <- from_dir_source in A. destruct (s (from_dir raw f)); congruence.
Qed.
Lemma gather_go : forall cwd raw s files, ~ all_there raw s files -> gather cwd raw s files = download cwd raw s files.
Proof.
  intros cwd raw s files A. unfold gather. destruct (forallb _ _) eqn:E; [|reflexivity]. exfalso. apply A. intros f Hf H.
  rewrite forallb_forall in E. specialize (E (from_dir raw f) (in_map _ _ _ Hf)). rewrite from_dir_source, H in E. discriminate.
Qed.
