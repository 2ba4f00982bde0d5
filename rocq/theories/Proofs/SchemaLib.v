(** Reading the validity of a document, and outcomes that are not undefined. *)
From Coq Require Import Bool String List Arith Lia.
From Verif Require Import Model.Num Model.Outcome Model.Xml Model.Schema Spec.SchemaSpec
  Proofs.OutcomeLib.
Import ListNotations.
Local Open Scope string_scope.

(** ** Outcomes *)

(** [reported] or [defined], as [strict] says. *)
Definition fine {V} (strict : bool) (o : outcome V) : Prop :=
  match o with
  | Ok _ | Throw _ => True
  | Terminate => strict = false
  | _ => False
  end.
Lemma fine_reported {V} (o : outcome V) : fine true o -> reported o.
Proof. destruct o; cbn; auto. Qed.
Lemma fine_defined {V} (o : outcome V) : fine false o -> defined o.
Proof. destruct o; cbn; auto. Qed.
Lemma reported_fine {V} s (o : outcome V) : reported o -> fine s o.
Proof. destruct o; cbn; auto; contradiction. Qed.
Lemma fine_bind {V W} s (o : outcome V) (f : V -> outcome W) :
  fine s o -> (forall x, o = Ok x -> fine s (f x)) -> fine s (bind o f).
Proof. destruct o; cbn; auto. Qed.
Lemma fine_noexcept {V} s (o : outcome V) :
  fine s o -> (s = true -> exists x, o = Ok x) -> fine s (noexcept o).
Proof.
  intros F K. destruct o; cbn in *; auto.
  destruct s; [|reflexivity]. destruct (K eq_refl); discriminate.
Qed.
Lemma fine_mapM {V W} s (f : V -> outcome W) l :
  (forall x, In x l -> fine s (f x)) -> fine s (mapM f l).
Proof.
  induction l as [|x l IH]; intros H; cbn; auto.
  apply fine_bind; [apply H; now left|]. intros y _.
  apply fine_bind; [apply IH; intros; apply H; now right|]. cbn. auto.
Qed.
Lemma fine_foldM {V S} s (f : S -> V -> outcome S) l :
  (forall a x, In x l -> fine s (f a x)) -> forall a, fine s (foldM f l a).
Proof.
  induction l as [|x l IH]; intros H a; cbn; auto.
  apply fine_bind; [apply H; now left|]. intros b _. apply IH. intros; apply H; now right.
Qed.
Lemma mapM_total {V W} (f : V -> outcome W) l :
  (forall x, In x l -> exists y, f x = Ok y) -> exists r, mapM f l = Ok r.
Proof.
  induction l as [|x l IH]; intros H; cbn; [eauto|].
  destruct (H x (or_introl eq_refl)) as (y & ->). destruct IH as (r & ->); cbn; eauto.
  intros; apply H; now right.
Qed.

(** ** Attributes and children of valid elements *)

Section Valid.
  Variable L : Lexical.

  Lemma distinct_spec l : distinct l = true -> NoDup l.
  Proof.
    induction l as [|x l IH]; cbn; intros H; constructor.
    - apply andb_prop in H as [H _]. intros Hin. apply negb_true_iff in H.
      assert (E : existsb (String.eqb x) l = true).
      { apply existsb_exists. exists x. split; auto. apply String.eqb_refl. }
      congruence.
    - apply andb_prop in H as [_ H]. auto.
  Qed.

  (** The handle of an element that has type [t]. *)
  Definition fits (t : etype) (n : node) : Prop :=
    match n with Some h => valid L t (h_elem h) = true | None => False end.

  Definition attrs_of (n : node) : list (string * string) :=
    match n with Some h => x_attrs (h_elem h) | None => [] end.

  Lemma complex_attributes d u c n : fits (TComplex d u c) n ->
    attributes_ok L d (attrs_of n) = true.
  Proof.
    destruct n as [h|]; [|contradiction]. cbn [fits valid attrs_of]. intros H.
    do 3 (apply andb_prop in H as [H _]). exact H.
  Qed.
  Lemma complex_text d u c n : fits (TComplex d u c) n -> n_text n = "".
  Proof.
    destruct n as [h|]; [|contradiction]. cbn [fits valid n_text]. intros H.
    apply andb_prop in H as [H _]. apply andb_prop in H as [_ H]. now apply String.eqb_eq.
  Qed.
  Lemma simple_text s n : fits (TSimple s) n -> simple_ok L s (n_text n) = true.
  Proof.
    destruct n as [h|]; [|contradiction]. cbn [fits valid n_text]. intros H.
    now apply andb_prop in H as [_ H].
  Qed.

  Lemma attr_find n nm : n_attr n nm
    = match find (fun a => String.eqb (fst a) nm) (attrs_of n) with
      | Some a => Some (snd a) | None => None end.
  Proof. destruct n; reflexivity. Qed.

  Lemma has_attribute d u c n nm s : fits (TComplex d u c) n -> In (nm, true, s) d ->
    exists v, n_attr n nm = Some v.
  Proof.
    intros H Hd. apply complex_attributes in H. rewrite attr_find.
    apply andb_prop in H as [_ H].
    rewrite forallb_forall in H. specialize (H _ Hd). cbn in H.
    apply existsb_exists in H as (a & Ha & E).
    destruct (find (fun a => String.eqb (fst a) nm) (attrs_of n)) as [b|] eqn:F; [eauto|].
    apply (find_none _ _ F) in Ha. cbn in Ha. congruence.
  Qed.
  Lemma typed_attribute d u c n nm v : fits (TComplex d u c) n -> n_attr n nm = Some v ->
    exists req s, In (nm, req, s) d /\ simple_ok L s v = true.
  Proof.
    intros H. apply complex_attributes in H. rewrite attr_find.
    destruct (find _ (attrs_of n)) as [a|] eqn:F; [|discriminate]. intros [= <-].
    apply find_some in F as [Ha E]. apply String.eqb_eq in E. subst nm.
    apply andb_prop in H as [H _]. rewrite forallb_forall in H. specialize (H _ Ha).
    apply existsb_exists in H as ([[dn dr] ds] & Hd & E). cbn in E.
    apply andb_prop in E as [E1 E2]. apply String.eqb_eq in E1. subst dn. eauto.
  Qed.

  Lemma children_in n c : In c (n_children n) ->
    exists h x, n = Some h /\ c = Some (mkH x (h_elem h :: h_anc h)) /\ In x (x_children (h_elem h)).
  Proof.
    destruct n as [h|]; [|contradiction]. cbn. intros H.
    apply in_map_iff in H as (x & <- & Hx). eauto 6.
  Qed.

  Lemma all_child l d u n nm req t : fits (TComplex d u (CAll l)) n ->
    NoDup (map (fun e => fst (fst e)) l) -> In (nm, req, t) l ->
    (n_child n nm = None /\ req = false)
    \/ (In (n_child n nm) (n_children n) /\ n_name (n_child n nm) = nm /\ fits t (n_child n nm)).
  Proof.
    intros H ND Hin. destruct n as [h|]; [|contradiction]. cbn [fits valid] in H.
    apply andb_prop in H as [_ H]. apply andb_prop in H as [H Req]. apply andb_prop in H as [Typ _].
    unfold n_child. destruct (find _ (n_children (Some h))) as [c|] eqn:F.
    - right. apply find_some in F as [Hc E]. apply String.eqb_eq in E. split; auto. split; auto.
      apply children_in in Hc as (h' & x & [= <-] & -> & Hx). cbn [fits h_elem].
      rewrite forallb_forall in Typ. specialize (Typ _ Hx).
      apply existsb_exists in Typ as ([[dn dr] dt] & Hd & Ed). cbn in Ed.
      apply andb_prop in Ed as [E1 E2]. apply String.eqb_eq in E1. cbn in E. subst dn.
      rewrite E in Hd.
      assert (K : forall (l : list (string * bool * etype)), NoDup (map (fun e => fst (fst e)) l) ->
        In (nm, req, t) l -> In (nm, dr, dt) l -> dt = t).
      { clear. induction l as [|[[a b] c] l IH]; cbn; [contradiction|]. intros ND.
        inversion ND as [|? ? N1 N2]; subst. intros [E|E] [F|F].
        - congruence.
        - exfalso. apply N1. injection E as -> -> ->. apply in_map_iff. now exists (nm, dr, dt).
        - exfalso. apply N1. injection F as -> -> ->. apply in_map_iff. now exists (nm, req, t).
        - auto. }
      now rewrite (K l ND Hin Hd) in E2.
    - left. split; auto. destruct req; auto. exfalso.
      rewrite forallb_forall in Req. specialize (Req _ Hin). cbn in Req.
      apply existsb_exists in Req as (x & Hx & E).
      assert (Hc : In (Some (mkH x (h_elem h :: h_anc h))) (n_children (Some h))).
      { cbn. apply in_map_iff. eauto. }
      apply (find_none _ _ F) in Hc. cbn in Hc. congruence.
  Qed.
  Lemma all_children l d u n c : fits (TComplex d u (CAll l)) n -> In c (n_children n) ->
    exists nm req t, In (nm, req, t) l /\ n_name c = nm /\ fits t c.
  Proof.
    intros H Hc. destruct n as [h|]; [|contradiction]. cbn [fits valid] in H.
    apply andb_prop in H as [_ H]. apply andb_prop in H as [H _]. apply andb_prop in H as [Typ _].
    apply children_in in Hc as (h' & x & [= <-] & -> & Hx).
    rewrite forallb_forall in Typ. specialize (Typ _ Hx).
    apply existsb_exists in Typ as ([[dn dr] dt] & Hd & Ed). cbn in Ed.
    apply andb_prop in Ed as [E1 E2]. apply String.eqb_eq in E1.
    exists dn, dr, dt. cbn. auto.
  Qed.
  Lemma choice_children l d u (once : bool) n c :
    fits (TComplex d u (if once then COnce l else CMany l)) n -> In c (n_children n) ->
    exists nm t, In (nm, t) l /\ n_name c = nm /\ fits t c.
  Proof.
    intros H Hc. destruct n as [h|]; [|contradiction]. cbn [fits valid] in H.
    apply andb_prop in H as [_ H].
    apply children_in in Hc as (h' & x & [= <-] & -> & Hx).
    assert (Typ : forallb (fun y => existsb (fun d => String.eqb (fst d) (x_name y)
              && valid L (snd d) y) l) (x_children (h_elem h)) = true)
      by (destruct once; apply andb_prop in H as [H _]; exact H).
    rewrite forallb_forall in Typ. specialize (Typ _ Hx).
    apply existsb_exists in Typ as ([dn dt] & Hd & Ed). cbn in Ed.
    apply andb_prop in Ed as [E1 E2]. apply String.eqb_eq in E1.
    exists dn, dt. cbn. auto.
  Qed.
  Lemma choice_first l d u (once : bool) n :
    fits (TComplex d u (if once then COnce l else CMany l)) n ->
    In (n_first_child n) (n_children n).
  Proof.
    intros H. destruct n as [h|]; [|contradiction]. cbn [fits valid] in H.
    apply andb_prop in H as [_ H]. unfold n_first_child.
    assert (N : x_children (h_elem h) <> []).
    { intros E. rewrite E in H. destruct once; apply andb_prop in H as [_ H]; discriminate. }
    cbn. destruct (x_children (h_elem h)); [congruence|]. now left.
  Qed.
  Lemma once_children l d u n : fits (TComplex d u (COnce l)) n ->
    n_children n = [n_first_child n].
  Proof.
    intros H. destruct n as [h|]; [|contradiction]. cbn [fits valid] in H.
    apply andb_prop in H as [_ H]. apply andb_prop in H as [_ H]. apply Nat.eqb_eq in H.
    unfold n_first_child. cbn. destruct (x_children (h_elem h)) as [|a [|? ?]]; try discriminate.
    reflexivity.
  Qed.
  Lemma unique_names_given d c n : fits (TComplex d true c) n ->
    NoDup (flat_map (fun m => match n_attr m "name" with Some v => [v] | None => [] end)
                    (n_children n)).
  Proof.
    intros H. destruct n as [h|]; [|contradiction]. cbn [fits valid] in H.
    apply andb_prop in H as [H _]. apply andb_prop in H as [H _]. apply andb_prop in H as [_ H].
    cbn in H. apply distinct_spec in H.
    replace (flat_map _ (n_children (Some h))) with (names_given (x_children (h_elem h))); auto.
    unfold names_given. cbn. clear. induction (x_children (h_elem h)) as [|x l IH]; cbn; auto.
    rewrite IH. destruct (find _ (x_attrs x)); reflexivity.
  Qed.

  (** ** Ancestors *)
  Lemma parent_child n c : In c (n_children n) -> n_parent c = n.
  Proof. intros H. apply children_in in H as ([e a] & x & -> & -> & _). reflexivity. Qed.
  Lemma root_children n c : In c (n_children n) -> n_root c = n_root n.
  Proof.
    intros H. apply children_in in H as ([e a] & x & -> & -> & _). cbn.
    destruct a as [|b a]; [reflexivity|].
    assert (K : forall (a : list xml) b d d', last (b :: a) d = last (b :: a) d').
    { clear. induction a as [|y a IH]; intros b d d'; [reflexivity|].
      change (last (y :: a) d = last (y :: a) d'). apply IH. }
    do 2 f_equal. exact (K a b x e).
  Qed.
End Valid.
