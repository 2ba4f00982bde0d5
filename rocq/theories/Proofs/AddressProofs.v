(** The same document with its objects elsewhere in memory: C97. *)
From Coq Require Import Bool String List ZArith NArith Arith Lia Permutation Reals Lra SpecFloat.
From Verif Require Import Model.Num Model.Outcome Model.Rng Model.Xml Model.Std Model.Point
  Model.Surface Model.Types Model.Bins Model.Field Model.Particle Model.Multigroup
  Model.Continuous Model.Material Model.World Model.Perturbation Model.Estimator Model.Transport
  Model.Driver Model.Schema Model.Program Spec.WorldSpec Spec.AddressSpec Proofs.OutcomeLib
  Proofs.WorldProofs Proofs.SampleProblem Proofs.SampleDocument Proofs.SampleProgram Proofs.SampleDocuments Proofs.RepoTests Spec.DoublePlaneSpec.
Import ListNotations.
Local Open Scope string_scope.

(** ** Pairs of outcomes *)
Lemma both_bind {X Y} (R : X -> X -> Prop) (S : Y -> Y -> Prop) o o' f g :
  both R o o' -> (forall x y, R x y -> both S (f x) (g y)) -> both S (bind o f) (bind o' g).
Proof.
  intros H F. destruct o, o'; cbn in *; try contradiction; try congruence; auto.
Qed.
Lemma both_foldM {X S} (R : S -> S -> Prop) (f g : S -> X -> outcome S) l :
  (forall x a b, In x l -> R a b -> both R (f a x) (g b x)) ->
  forall a b, R a b -> both R (foldM f l a) (foldM g l b).
Proof.
  induction l as [|x l IH]; intros H a b Hab; [exact Hab|]. cbn [foldM].
  apply (both_bind R R); [apply H; [now left|exact Hab]|]. intros. apply IH; auto.
  intros. apply H; auto. now right.
Qed.
Lemma both_refl {X} (R : X -> X -> Prop) o : (forall x, R x x) -> both R o o.
Proof. intros H. destruct o; cbn; auto. Qed.
Lemma both_eq {X} (o o' : outcome X) : both eq o o' -> o = o'.
Proof. destruct o, o'; cbn; intros; try contradiction; congruence. Qed.
Lemma both_noexcept {X} (R : X -> X -> Prop) o o' : both R o o' -> both R (noexcept o) (noexcept o').
Proof. destruct o, o'; cbn; intros; try contradiction; try discriminate; auto. Qed.
Lemma both_weaken {X} (R S : X -> X -> Prop) o o' :
  (forall x y, R x y -> S x y) -> both R o o' -> both S o o'.
Proof. intros H. destruct o, o'; cbn; auto. Qed.

(** ** Inserting at another address *)
Lemma existsb_perm {X} (f : X -> bool) l l' : Permutation l l' -> existsb f l = existsb f l'.
Proof.
  induction 1; cbn; try congruence. now rewrite !orb_assoc, (orb_comm (f y)).
Qed.
Section Collects.
  Context {V W : Type} (name : V -> string) (id : V -> nat) (key : node -> string)
    (val : node -> outcome W) (all : list V).
  Notation coll a := (collect name id key val a all).

  Lemma collect_moved a a' ns : both (@Permutation _) (coll a ns) (coll a' ns).
  Proof.
    apply both_foldM; [|constructor]. intros n l l' _ P. unfold collect_step.
    destruct (find _ all) as [s|]; [|reflexivity].
    apply (both_bind eq _ (val n) (val n)); [apply both_refl; auto|]. intros v ? <-. cbn.
    rewrite (existsb_perm _ _ _ P). destruct (existsb _ l'); [exact P|].
    rewrite (insert_perm a), (insert_perm a'). now constructor.
  Qed.
  Lemma collect_order a a' ns : (forall x y, (a x < a y)%N <-> (a' x < a' y)%N) ->
    both eq (coll a ns) (coll a' ns).
  Proof.
    intros H. apply both_foldM; [|reflexivity]. intros n l ? _ <-. unfold collect_step.
    destruct (find _ all) as [s|]; [|reflexivity].
    apply (both_bind eq _ (val n) (val n)); [apply both_refl; auto|]. intros v ? <-. cbn.
    destruct (existsb _ l); [reflexivity|].
    induction l as [|y l IH]; cbn; [reflexivity|].
    replace (a (s, v) <? a y)%N with (a' (s, v) <? a' y)%N.
    - destruct (_ <? _)%N; congruence.
    - apply eq_true_iff_eq. rewrite !N.ltb_lt. symmetry. apply H.
  Qed.
  Lemma collect_few a a' ns : (length ns <= 1)%nat -> both eq (coll a ns) (coll a' ns).
  Proof.
    destruct ns as [|n [|m ns]]; cbn; intros H; [reflexivity| |lia]. unfold collect. cbn.
    unfold collect_step. destruct (find _ all); [|reflexivity]. destruct (val n); reflexivity.
  Qed.
End Collects.

Lemma forall2_length {V W} (R : V -> W -> Prop) l l' : Forall2 R l l' -> length l = length l'.
Proof. induction 1; cbn; auto. Qed.

(** ** The world *)
Section Moved.
  Context {A : Arith} (X : Ext A) (s n s' n' : nat -> N) (root : node).
  Notation X1 := (moved X s n).
  Notation X2 := (moved X s' n').
  Variables (qs : list (surf A * bool) -> list (surf A * bool) -> Prop)
            (ql qn : list (nuclide A * num A) -> list (nuclide A * num A) -> Prop).
  Hypothesis Surfaces : forall surfaces c, In c (n_children (n_child root "cells")) ->
    both qs (assign_senses X1 surfaces (n_children c)) (assign_senses X2 surfaces (n_children c)).
  Hypothesis Nuclides : forall all m, In m (n_children (n_child root "materials")) ->
    both ql (collect_nuclides X1 all (n_children m)) (collect_nuclides X2 all (n_children m)).
  Hypothesis Normal : forall l l', ql l l' -> qn (normalize_afracs l) (normalize_afracs l').

  Lemma material_moved name all :
    both (same_material qn) (material_create X1 root name all) (material_create X2 root name all).
  Proof.
    unfold material_create, material_node, n_find_by_attr.
    destruct (find _ _) as [m|] eqn:F; [|reflexivity].
    destruct (is_null m); [reflexivity|]. cbn [bind].
    eapply both_bind; [apply Nuclides; now apply find_some in F|].
    intros l l' H. cbn. constructor; cbn; auto.
  Qed.
  Lemma existsb_named k l l' : Forall2 (same_material qn) l l' ->
    existsb (fun m => String.eqb (m_name m) k) l = existsb (fun m => String.eqb (m_name m) k) l'.
  Proof. induction 1 as [|m m' l l' H _ IH]; cbn; auto. now rewrite (sm_name _ _ _ H), IH. Qed.
  Lemma materials_moved all :
    both (Forall2 (same_material qn)) (create_materials X1 root all) (create_materials X2 root all).
  Proof.
    apply both_foldM; [|constructor]. intros c l l' _ H. cbv zeta. rewrite (existsb_named (as_string (n_attr c "material")) _ _ H).
    destruct (existsb _ l'); [exact H|]. eapply both_bind; [apply material_moved|].
    intros m m' Hm. cbn. apply Forall2_app; auto.
  Qed.
  Lemma find_named k l l' : Forall2 (same_material qn) l l' ->
    match find (fun m => String.eqb (m_name m) k) l, find (fun m => String.eqb (m_name m) k) l' with
    | Some m, Some m' => same_material qn m m'
    | None, None => True
    | _, _ => False
    end.
  Proof.
    induction 1 as [|m m' l l' H _ IH]; cbn; auto. rewrite (sm_name _ _ _ H).
    destruct (String.eqb _ _); auto.
  Qed.
  Lemma cell_moved id c surfaces l l' temperature :
    In c (n_children (n_child root "cells")) -> Forall2 (same_material qn) l l' ->
    both (same_cell qs qn) (cell_create X1 id c surfaces l temperature)
      (cell_create X2 id c surfaces l' temperature).
  Proof.
    intros Hc H. apply both_noexcept. eapply both_bind; [now apply Surfaces|].
    intros ss ss' Hss.
    apply (both_bind (fun o o' => match o, o' with
             | Some m, Some m' => same_material qn m m' | None, None => True | _, _ => False end)).
    - unfold assign_material. destruct (n_attr c "name"); [|exact I].
      pose proof (find_named (as_string (n_attr c "material")) _ _ H) as F.
      destruct (find _ l), (find _ l'); cbn; auto.
    - intros m m' Hm. cbn. constructor; cbn; auto.
  Qed.
  Lemma world_moved : both (same_world qs qn) (world_create X1 root) (world_create X2 root).
  Proof.
    unfold world_create.
    apply (both_bind eq). { apply both_refl; auto. } intros surfaces ? <-.
    apply (both_bind eq). { apply both_refl; auto. } intros nuclides ? <-.
    eapply both_bind; [apply materials_moved|]. intros l l' H.
    apply (both_bind eq). { apply both_refl; auto. } intros temperature ? <-.
    apply (both_bind (Forall2 (same_cell qs qn))).
    - apply both_foldM; [|constructor]. intros c k k' Hc Hk.
      rewrite <- (forall2_length _ _ _ Hk). eapply both_bind; [now apply cell_moved|].
      intros d d' Hd. cbn. apply Forall2_app; auto.
    - intros cells cells' Hcells. cbn. now constructor.
  Qed.
End Moved.

Lemma forall2_eq {V} (R : V -> V -> Prop) l l' : (forall x y, R x y -> x = y) -> Forall2 R l l' -> l = l'.
Proof. intros H. induction 1 as [|x y l l' E _ IH]; [reflexivity|]. apply H in E. congruence. Qed.
Lemma same_material_eq {A : Arith} (m m' : material A) : same_material eq m m' -> m = m'.
Proof. destruct m, m'. intros []. cbn in *. congruence. Qed.
Lemma same_cell_eq {A : Arith} (c c' : cell A) : same_cell eq eq c c' -> c = c'.
Proof.
  destruct c as [? ? ? [m|] ?], c' as [? ? ? [m'|] ?]; intros []; cbn in *; try contradiction;
    try apply same_material_eq in sl_material; congruence.
Qed.
Lemma same_world_eq {A : Arith} (w w' : world A) : same_world eq eq w w' -> w = w'.
Proof.
  destruct w, w'. intros []. cbn in *. apply forall2_eq in sw_materials; [|exact same_material_eq].
  apply forall2_eq in sw_cells; [|exact same_cell_eq]. congruence.
Qed.

Section Run.
  Context {A : Arith} {G : Rng A}.

  Lemma driver_moved (X : Ext A) s n s' n' root source :
    world_create (moved X s n) root = world_create (moved X s' n') root ->
    driver_create (moved X s n) root source = driver_create (moved X s' n') root source.
  Proof. unfold driver_create. intros ->. reflexivity. Qed.
  Lemma main_moved (V : Env A) s n s' n' args fuel schedule :
    (forall path root, open_document V path = Ok root ->
       world_create (moved (env_ext V) s n) root = world_create (moved (env_ext V) s' n') root) ->
    main (G := G) (moved_env V s n) args fuel schedule
    = main (G := G) (moved_env V s' n') args fuel schedule.
  Proof.
    intros H. unfold main. destruct args as [|path [|]]; try reflexivity.
    change (open_document (moved_env V s n) path) with (open_document V path).
    change (open_document (moved_env V s' n') path) with (open_document V path).
    destruct (open_document V path) as [root| | | |] eqn:E; try reflexivity. cbn [bind].
    assert (Ep : create_problem (G := G) (moved_env V s n) root = create_problem (G := G) (moved_env V s' n') root).
    { unfold create_problem, fixed_source_create, keigen_create. cbn [moved_env env_ext].
      rewrite !(driver_moved (env_ext V) s n s' n') by eauto. reflexivity. }
    rewrite Ep. reflexivity.
  Qed.
End Run.

Lemma C97_order_proof :
  forall (A : Arith) (G : Rng A) (V : Env A) surfaces nuclides surfaces' nuclides'
    arguments fuel schedule,
  same_order surfaces surfaces' -> same_order nuclides nuclides' ->
  main (G := G) (moved_env V surfaces nuclides) arguments fuel schedule
  = main (G := G) (moved_env V surfaces' nuclides') arguments fuel schedule.
Proof.
  intros A G V s n s' n' args fuel schedule Hs Hn. apply main_moved. intros path root _.
  apply both_eq. eapply both_weaken; [exact same_world_eq|].
  apply (world_moved _ _ _ _ _ _ eq eq eq).
  - intros sf c _. apply collect_order. intros x y. apply Hs.
  - intros all m _. rewrite !collect_is.
    apply (collect_order nu_name nu_id name_of (fun c => Ok (as_double (env_ext V) (n_attr c "afrac")))). intros x y. apply Hn.
  - intros l ? <-. reflexivity.
Qed.

Lemma C97_few_proof :
  forall (A : Arith) (G : Rng A) (V : Env A) surfaces nuclides surfaces' nuclides'
    path root fuel schedule,
  open_document V path = Ok root -> few root ->
  main (G := G) (moved_env V surfaces nuclides) [path] fuel schedule
  = main (G := G) (moved_env V surfaces' nuclides') [path] fuel schedule.
Proof.
  intros A G V s n s' n' path root fuel schedule E [Fm Fc].
  assert (W : world_create (moved (env_ext V) s n) root = world_create (moved (env_ext V) s' n') root).
  { apply both_eq. eapply both_weaken; [exact same_world_eq|].
    apply (world_moved _ _ _ _ _ _ eq eq eq).
    - intros sf c Hc. apply collect_few. auto.
    - intros all m Hm. rewrite !collect_is.
    apply (collect_few nu_name nu_id name_of (fun c => Ok (as_double (env_ext V) (n_attr c "afrac")))). auto.
    - intros l ? <-. reflexivity. }
  unfold main. change (open_document (moved_env V s n) path) with (open_document V path).
  change (open_document (moved_env V s' n') path) with (open_document V path).
  rewrite E. cbn [bind].
  assert (Ep : create_problem (G := G) (moved_env V s n) root = create_problem (G := G) (moved_env V s' n') root).
  { unfold create_problem, fixed_source_create, keigen_create. cbn [moved_env env_ext].
    rewrite !(driver_moved (env_ext V) s n s' n') by auto. reflexivity. }
  rewrite Ep. reflexivity.
Qed.

Lemma C97_built_proof :
  forall (A : Arith) (X : Ext A) surfaces nuclides surfaces' nuclides' root,
  both (same_world in_some_order same_objects)
    (world_create (moved X surfaces nuclides) root)
    (world_create (moved X surfaces' nuclides') root).
Proof.
  intros A X s n s' n' root.
  apply (world_moved _ _ _ _ _ _ (@Permutation _) (@Permutation _)).
  - intros sf c _. apply collect_moved.
  - intros all m _. rewrite !collect_is.
    apply (collect_moved nu_name nu_id name_of (fun c => Ok (as_double X (n_attr c "afrac")))).
  - intros l l' P. unfold same_objects, normalize_afracs. rewrite !map_map. cbn.
    now apply Permutation_map.
Qed.

Lemma xadd_comm a b : xadd a b = xadd b a.
Proof. destruct a, b; cbn; try reflexivity. f_equal. lra. Qed.
Lemma xadd_assoc a b c : xadd a (xadd b c) = xadd (xadd a b) c.
Proof. destruct a, b, c; cbn; try reflexivity. f_equal. lra. Qed.
Lemma xsum_perm (l l' : list (nuclide XRa * num XRa)) : Permutation l l' -> forall a,
  fold_left (fun acc x => nadd XRa acc (snd x)) l a = fold_left (fun acc x => nadd XRa acc (snd x)) l' a.
Proof.
  induction 1; intros a; cbn [fold_left]; auto.
  - f_equal. change (xadd (xadd a (snd y)) (snd x) = xadd (xadd a (snd x)) (snd y)).
    rewrite <- !xadd_assoc. f_equal. apply xadd_comm.
  - congruence.
Qed.
Lemma C97_exact_proof :
  forall (X : Ext XRa) surfaces nuclides surfaces' nuclides' root,
  both (same_world in_some_order in_some_order)
    (world_create (moved X surfaces nuclides) root)
    (world_create (moved X surfaces' nuclides') root).
Proof.
  intros X s n s' n' root.
  apply (world_moved _ _ _ _ _ _ (@Permutation _) (@Permutation _)).
  - intros sf c _. apply collect_moved.
  - intros all m _. rewrite !collect_is.
    apply (collect_moved nu_name nu_id name_of (fun c => Ok (as_double X (n_attr c "afrac")))).
  - intros l l' P. unfold in_some_order, normalize_afracs. rewrite (xsum_perm _ _ P).
    now apply Permutation_map.
Qed.

Lemma forallb_perm {X} (f : X -> bool) l l' : Permutation l l' -> forallb f l = forallb f l'.
Proof.
  induction 1; cbn; try congruence. now rewrite !andb_assoc, (andb_comm (f y)).
Qed.
Lemma C97_place_proof :
  forall (A : Arith) nuclides (w w' : world A) (p : point A),
  same_world in_some_order nuclides w w' ->
  both (same_cell in_some_order nuclides) (find_cell w p) (find_cell w' p).
Proof.
  intros A q w w' p H. apply sw_cells in H. unfold find_cell.
  induction H as [|c c' l l' Hc _ IH]; cbn; [reflexivity|].
  assert (E : cell_contains c p = cell_contains c' p).
  { apply forallb_perm. apply Hc. }
  rewrite E. destruct (cell_contains c' p); [exact Hc|]. exact IH.
Qed.

(** ** Runs with different results *)
Ltac run := match goal with |- _ = ?r => vm_cast_no_check (eq_refl r) end.
Lemma C97_nuclides_refuted_proof :
  valid_document repo_lexical doc_address_nuclides = true
  /\ reported (moved repo_ext in_a_row in_a_row) (root doc_address_nuclides) 1 "leakage"
     = Ok (nofZ (F64 quick_libm) 1)
  /\ reported (moved repo_ext in_a_row (exchanged 0 1)) (root doc_address_nuclides) 1 "leakage"
     = Ok (nofZ (F64 quick_libm) 0).
Proof. split; [vm_compute; reflexivity|]. split; run. Qed.

Lemma C97_surfaces_refuted_proof :
  valid_document repo_lexical doc_address_surfaces = true
  /\ (let row := reported (moved repo_ext in_a_row in_a_row) (root doc_address_surfaces) 1 in
      row "at the ball" = Ok (nofZ (F64 quick_libm) 1)
      /\ row "at the wall" = Ok (nofZ (F64 quick_libm) 0))
  /\ (let row := reported (moved repo_ext (exchanged 1 2) in_a_row) (root doc_address_surfaces) 1 in
      row "at the ball" = Ok (nofZ (F64 quick_libm) 0)
      /\ row "at the wall" = Ok (nofZ (F64 quick_libm) 1)).
Proof.
  split; [vm_compute; reflexivity|]. split; cbv zeta; split; run.
Qed.

Lemma C97_example :
  open_document (slab_env slab_ext slab_xml) "dir/slab.xml" = Ok slab_fixed /\ few slab_fixed
  /\ same_order in_a_row N.of_nat /\ ~ same_order in_a_row (exchanged 0 1).
Proof.
  split; [exact slab_opens|]. split; [|split].
  - split; intros m Hm; cbn in Hm; repeat (destruct Hm as [<-|Hm]; [cbn; lia|]); destruct Hm.
  - intros i j. unfold in_a_row. lia.
  - intros H. specialize (H 0%nat 1%nat). vm_compute in H. destruct H as [H _].
    specialize (H eq_refl). discriminate.
Qed.
(** Two cells that differ only in the order of their surfaces. *)
Lemma C97_example_cells :
  let surfaces_of (w : world (F64 quick_libm)) :=
    map (fun c => map (fun x => su_name (fst x)) (c_senses c)) (w_cells w) in
  bind (world_create (moved repo_ext in_a_row in_a_row) (root doc_address_surfaces))
    (fun w => Ok (surfaces_of w)) = Ok [["left"; "ball"; "wall"]; ["left"]; ["left"; "ball"]]
  /\ bind (world_create (moved repo_ext (exchanged 1 2) in_a_row) (root doc_address_surfaces))
    (fun w => Ok (surfaces_of w)) = Ok [["left"; "wall"; "ball"]; ["left"]; ["left"; "ball"]].
Proof. cbv zeta. split; run. Qed.
