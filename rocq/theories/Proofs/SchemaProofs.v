(** Reading a document that follows the schema: C75. *)
From Coq Require Import Bool String List Arith NArith ZArith Lia Reals.
From Verif Require Import Model.Num Model.Outcome Model.Rng Model.Xml Model.Std Model.Point
  Model.Surface Model.Types Model.Bins Model.Field Model.Tables Model.Particle
  Model.Multigroup Model.Thermal Model.Continuous Model.Material Model.World Model.Perturbation
  Model.Estimator Model.Transport Model.Driver Model.Schema Model.Program
  Spec.WorldSpec Spec.SchemaSpec Spec.EstimatorSpec Proofs.OutcomeLib Proofs.SchemaLib
  Proofs.WorldProofs Proofs.ResultProofs.
Import ListNotations.
Local Open Scope string_scope.
Local Open Scope outcome_scope.

Lemma fine_vec_at {V} s (l : list V) i : fine s (vec_at l i).
Proof.
  unfold vec_at. destruct (i <? N.of_nat (length l))%N eqn:E; [|exact I].
  apply N.ltb_lt in E. destruct (nth_error l (N.to_nat i)) eqn:F; [exact I|].
  apply nth_error_None in F. lia.
Qed.

(** The names of an xs:all group differ. *)
Ltac names_differ := cbn; repeat constructor; cbn; intuition discriminate.
Section Reading.
  Context {A : Arith}.
  Variables (L : Lexical) (X : Ext A) (strict : bool).
  Hypothesis Lib : library_returns X.
  Hypothesis Axes : no_empty_axis X.

  (** ** Data files *)
  Lemma load_fine d path : fine strict (dataset_load X d path).
  Proof.
    unfold dataset_load. destruct (h5_file X path) as [[axes values]|]; [|exact I].
    destruct (Nat.eqb (length axes) d); exact I.
  Qed.
  Lemma load_total d path : has_axes X d path ->
    exists ds, dataset_load X d path = Ok ds /\ length (ds_axes ds) = d /\ ~ In [] (ds_axes ds).
  Proof.
    intros (axes & values & E & <- & N). unfold dataset_load. rewrite E, Nat.eqb_refl.
    eexists. split; [reflexivity|]. cbn. auto.
  Qed.
  Lemma load_axes d path ds : dataset_load X d path = Ok ds ->
    length (ds_axes ds) = d /\ ~ In [] (ds_axes ds).
  Proof.
    unfold dataset_load. destruct (h5_file X path) as [[axes values]|] eqn:E; [|discriminate].
    destruct (Nat.eqb_spec (length axes) d); [|discriminate]. intros [= <-]. cbn.
    split; auto. eapply Axes; eauto.
  Qed.
  Lemma axis_total (ds : dataset A) d : length (ds_axes ds) = S d -> ~ In [] (ds_axes ds) ->
    exists a, ds_axis ds 0 = Ok a /\ a <> [].
  Proof.
    unfold ds_axis, vec_at. destruct (ds_axes ds) as [|a axes]; [discriminate|]. cbn. intros _ N.
    exists a. split; auto.
  Qed.
  Lemma map1_fine path : fine strict (load_map1 X path).
  Proof.
    unfold load_map1. apply fine_bind; [apply load_fine|]. intros ds E.
    apply load_axes in E as [E1 E2]. cbn [to_cmap].
    destruct (axis_total ds 0 E1 E2) as (a & Ea & _). cbn [length N.of_nat]. rewrite Ea. cbn [bind]. clear Ea.
    generalize 0%N. generalize (@nil (num A * cmap A 0)).
    induction a as [|k a IH]; intros acc i; [exact I|].
    apply fine_bind; [|intros v _; apply IH].
    unfold ds_at. rewrite E1. cbn [length app Nat.eqb].
    cbn [at_from_base]. apply fine_bind; [apply fine_vec_at|]. intros axis _.
    destruct (N.of_nat (length axis) <=? i)%N; [exact I|]. apply fine_vec_at.
  Qed.
  Lemma map1_total path : has_curve X path -> exists m, load_map1 X path = Ok m.
  Proof.
    intros (axis & values & E & _ & Le). unfold load_map1, dataset_load. rewrite E.
    cbn [length Nat.eqb bind]. cbn [to_cmap]. unfold ds_axis, vec_at. cbn [make_dataset ds_axes length].
    cbn [noexcept nth_error bind N.ltb N.compare N.of_nat N.to_nat].
    set (ds := make_dataset [axis] values).
    assert (K : forall a i acc, (N.to_nat i + length a <= length axis)%nat -> exists m,
      (fix loop (i : N) (ks : list (num A)) (acc : list (num A * cmap A 0)) {struct ks}
             : outcome (list (num A * cmap A 0)) :=
           match ks with
           | [] => Ok acc
           | k :: t =>
               let! v := ds_at ds ([] ++ [i])%list in
               loop (i + 1)%N t (map_set k v acc)
           end) i a acc = Ok m).
    { induction a as [|k a IH]; intros i acc H; [eauto|]. cbn [length] in H.
      assert (Ev : exists v, ds_at ds ([] ++ [i])%list = Ok v).
      { unfold ds_at, ds. cbn [app length make_dataset ds_axes Nat.eqb at_from_base].
        unfold vec_at at 1. cbn [length nth_error bind N.ltb N.compare N.of_nat N.to_nat].
        destruct (N.leb_spec (N.of_nat (length axis)) i) as [Hi|Hi]; [lia|].
        cbn [bind]. unfold vec_at. change (ds_values (make_dataset [axis] values)) with values.
        destruct (N.ltb_spec (0 + i) (N.of_nat (length values))) as [Hv|Hv]; [|lia].
        destruct (nth_error values (N.to_nat (0 + i))) eqn:F; [eauto|].
        apply nth_error_None in F. lia. }
      destruct Ev as (v & ->). cbn [bind]. apply IH. lia. }
    apply K. cbn. lia.
  Qed.

  (** ** Multigroup data *)
  Notation groups n := (group_structure_size X (n_root n)).

  Lemma one_fine n : fine strict (one_dimensional X n).
  Proof. unfold one_dimensional, make_one. destruct (_ =? _)%N; exact I. Qed.
  Lemma two_fine n : fine strict (two_dimensional X n).
  Proof.
    unfold two_dimensional, make_two. destruct (_ =? _)%N; [|exact I].
    apply fine_mapM. intros gp _. apply fine_mapM. intros g _. apply fine_vec_at.
  Qed.
  Lemma when_fine {V} n (k : node -> outcome V) : (n <> None -> fine strict (k n)) ->
    fine strict (when_node n k).
  Proof.
    intros H. unfold when_node. destruct n; cbn [is_null]; [|exact I].
    apply fine_bind; [apply H; discriminate|]. intros; exact I.
  Qed.
  Lemma one_length n v : one_dimensional X n = Ok v -> length v = N.to_nat (groups n).
  Proof.
    unfold one_dimensional, make_one. destruct (N.eqb_spec (N.of_nat (length (to_reals X (n_text n)))) (groups n));
      [|discriminate]. intros [= <-]. lia.
  Qed.
  Lemma mapM_length {U V} (f : U -> outcome V) l r : mapM f l = Ok r -> length r = length l.
  Proof.
    intros E. apply mapM_ok in E. induction E; cbn; auto.
  Qed.
  Lemma scatter_length n v : create_scatter_xs X n = Ok v -> length v = N.to_nat (groups n).
  Proof.
    unfold create_scatter_xs, two_dimensional, make_two. intros E.
    apply bind_ok in E as (m & E & [= <-]). rewrite map_length.
    destruct (_ =? _)%N; [|discriminate]. apply mapM_length in E. now rewrite E, seq_length.
  Qed.
  Lemma emplaced r v l x : In x (reaction_emplace (A := A) r v l) -> x = (r, v) \/ In x l.
  Proof.
    induction l as [|[r' v'] t IH]; cbn; [intuition|].
    repeat match goal with |- context [if ?b then _ else _] => destruct b end; cbn; intuition.
  Qed.
  Lemma add_total (a b : list (num A)) : length a = length b -> exists r, add_onto a b = Ok r /\ length r = length a.
  Proof.
    revert b. induction a as [|x a IH]; intros [|y b]; try discriminate; cbn; [eauto|].
    intros [= E]. destruct (IH b E) as (r & -> & Er). cbn. eexists. split; [reflexivity|]. cbn. auto.
  Qed.

  Lemma multigroup_fine n : fits L GroupXSReactions n -> fine strict (multigroup_create X n).
  Proof.
    intros F. unfold multigroup_create.
    apply fine_bind; [apply when_fine; intros; apply one_fine|]. intros nubar _.
    apply fine_bind; [apply when_fine; intros; apply fine_bind; [apply two_fine|intros; exact I]|].
    intros chi _.
    apply fine_bind; [apply when_fine; intros; apply fine_bind; [apply two_fine|intros; exact I]|].
    intros probs _.
    assert (Kind : forall c, In c (n_children n) -> n_name c = "fission" ->
      n_root (n_child c "xs") = n_root n).
    { intros c Hc E. destruct (all_children L _ _ _ _ _ F Hc) as (nm & req & t & Ht & En & Fc).
      unfold maybe in Ht. cbn in Ht. destruct Ht as [Ht|[Ht|[Ht|[]]]]; injection Ht as <- <- <-;
        try congruence.
      destruct (all_child L _ _ _ _ "xs" true GroupXS Fc ltac:(names_differ) ltac:(cbn; auto))
        as [[_ K]|(K & _)]; [discriminate|].
      now rewrite (root_children _ _ K), (root_children _ _ Hc). }
    apply fine_bind.
    - unfold create_reactions. apply fine_foldM. intros acc c Hc.
      apply fine_bind.
      { unfold to_reaction. do 3 (destruct (String.eqb _ _); [exact I|]). exact I. }
      intros r Er. apply fine_bind; [|intros; exact I].
      destruct r; try apply one_fine. unfold create_scatter_xs.
      apply fine_bind; [apply two_fine|]. intros; exact I.
    - intros reactions E. apply fine_bind; [|intros; exact I].
      assert (Len : forall x, In x reactions -> length (snd x) = N.to_nat (groups n)).
      { unfold create_reactions in E.
        revert E.
        apply (foldM_inv _ (fun l => forall x, In x l -> length (snd x) = N.to_nat (groups n)));
          [|intros x []].
        intros acc c acc' Hc IH E'. apply bind_ok in E' as (r & Er & E').
        apply bind_ok in E' as (v & Ev & [= <-]). intros x Hx.
        apply emplaced in Hx as [->|Hx]; auto. cbn.
        destruct r.
        - apply one_length in Ev. now rewrite (root_children _ _ Hc) in Ev.
        - apply scatter_length in Ev. now rewrite (root_children _ _ Hc) in Ev.
        - apply one_length in Ev. rewrite Kind in Ev; auto.
          unfold to_reaction in Er.
          destruct (String.eqb_spec (n_name c) "capture"); [discriminate|].
          destruct (String.eqb_spec (n_name c) "scatter"); [discriminate|].
          destruct (String.eqb_spec (n_name c) "fission"); [auto|discriminate]. }
      unfold create_total. clear E.
      assert (H0 : length (repeat (nofZ A 0) (N.to_nat (groups n))) = N.to_nat (groups n))
        by apply repeat_length.
      revert H0. generalize (repeat (nofZ A 0) (N.to_nat (groups n))).
      induction reactions as [|x l IH]; intros acc Ha; [exact I|]. cbn [foldM].
      destruct (add_total acc (snd x)) as (r & -> & Er).
      { rewrite Ha. symmetry. apply Len. now left. }
      cbn [bind]. apply IH; [intros; apply Len; now right|congruence].
  Qed.

  (** ** Continuous data *)
  Lemma evaluation_fine n : fine strict (evaluation_create X n).
  Proof. apply fine_bind; [apply map1_fine|]. intros; exact I. Qed.
  Lemma partition_fine grid n : fine strict (partition_create X grid n).
  Proof.
    unfold partition_create. apply fine_bind; [apply load_fine|intros].
    apply fine_bind; [apply load_fine|intros]. apply fine_bind; [apply load_fine|intros; exact I].
  Qed.
  Lemma partition_total grid n : has_axes X 2 (attribute n "CDF") -> has_axes X 1 (attribute n "S") ->
    has_axes X 3 (attribute n grid) ->
    exists p, partition_create X grid n = Ok p.
  Proof.
    intros H1 H2 H3. unfold partition_create, attribute in *.
    destruct (load_total _ _ H1) as (d1 & -> & _). destruct (load_total _ _ H2) as (d2 & -> & _).
    destruct (load_total _ _ H3) as (d3 & -> & _). cbn. eauto.
  Qed.
  Lemma grids_total grid ns ps : mapM (partition_create X grid) ns = Ok ps ->
    exists axes, mapM (fun pa => ds_axis (pa_grid pa) 0) ps = Ok axes.
  Proof.
    intros E. apply mapM_total. intros p Hp. apply mapM_ok in E.
    assert (exists n, partition_create X grid n = Ok p) as (n & En).
    { clear - E Hp. induction E; [contradiction|]. destruct Hp as [<-|Hp]; eauto. }
    unfold partition_create in En. apply bind_ok in En as (cdf & _ & En).
    apply bind_ok in En as (s & _ & En). apply bind_ok in En as (g & Eg & [= <-]). cbn.
    apply load_axes in Eg as [E1 E2]. destruct (axis_total g 2 E1 E2) as (a & -> & _). eauto.
  Qed.
  Lemma thermal_fine n : (strict = true -> readable_library X n) ->
    fine strict (thermal_create X n).
  Proof.
    intros R. unfold thermal_create. apply fine_noexcept.
    - apply fine_bind; [apply map1_fine|intros majorant _].
      apply fine_bind; [apply load_fine|intros xs_T _].
      apply fine_bind; [apply load_fine|intros xs_S _].
      apply fine_bind; [apply load_fine|intros xs_E EE].
      apply fine_bind; [apply fine_mapM; intros; apply partition_fine|intros betap Eb].
      destruct (grids_total _ _ _ Eb) as (axes & Ea). unfold concat_axes, partition_ends.
      rewrite Ea. cbn [bind].
      apply fine_bind; [apply fine_mapM; intros; apply partition_fine|intros alphap Ep].
      destruct (grids_total _ _ _ Ep) as (axes' & Ea'). rewrite Ea'. cbn [bind].
      apply load_axes in EE as [E1 E2]. destruct (axis_total xs_E 1 E1 E2) as (a & -> & Na).
      cbn [bind]. destruct (rev a) eqn:Er; [|exact I].
      apply (f_equal (@length _)) in Er. rewrite rev_length in Er. destruct a; [congruence|discriminate].
    - intros S0. destruct (R S0) as (H1 & H2 & H3 & H4 & H5 & H6). unfold attribute in *.
      destruct (map1_total _ H1) as (majorant & ->). cbn [bind].
      destruct (load_total _ _ H2) as (xs_T & -> & _). cbn [bind].
      destruct (load_total _ _ H3) as (xs_S & -> & _). cbn [bind].
      destruct (load_total _ _ H4) as (xs_E & -> & E1 & E2). cbn [bind].
      destruct (mapM_total (partition_create X "E_T") (n_children (n_child n "beta_partitions")))
        as (betap & Eb).
      { intros p Hp. destruct (H5 p Hp) as (? & ? & ?). now apply partition_total. }
      rewrite Eb. cbn [bind].
      destruct (grids_total _ _ _ Eb) as (axes & Ea). unfold concat_axes, partition_ends.
      rewrite Ea. cbn [bind].
      destruct (mapM_total (partition_create X "beta_T") (n_children (n_child n "alpha_partitions")))
        as (alphap & Ep).
      { intros p Hp. destruct (H6 p Hp) as (? & ? & ?). now apply partition_total. }
      rewrite Ep. cbn [bind].
      destruct (grids_total _ _ _ Ep) as (axes' & Ea'). rewrite Ea'. cbn [bind].
      destruct (axis_total xs_E 1 E1 E2) as (a & -> & Na). cbn [bind].
      destruct (rev a) eqn:Er; [|eauto].
      apply (f_equal (@length _)) in Er. rewrite rev_length in Er. destruct a; [congruence|discriminate].
  Qed.
  Lemma continuous_fine n : (strict = true -> n_child (n_child n "scatter") "tsl" <> None ->
      readable_library X (n_child (n_child n "scatter") "tsl")) ->
    NoDup (map n_name (n_children n)) ->
    fine strict (continuous_create X n).
  Proof.
    intros R ND. unfold continuous_create. apply fine_bind.
    - apply fine_mapM. intros c Hc. apply filter_In in Hc as [Hc _].
      unfold creaction_create. apply fine_bind.
      { unfold to_reaction. do 3 (destruct (String.eqb _ _); [exact I|]). exact I. }
      intros r Er. destruct r.
      + apply fine_bind; [apply evaluation_fine|intros; exact I].
      + apply fine_bind; [apply evaluation_fine|intros].
        apply fine_bind; [|intros; exact I].
        unfold read_sab. destruct (n_child c "tsl") as [h|] eqn:Et; cbn [is_null]; [|exact I].
        destruct (negb _); [exact I|].
        apply fine_bind; [|intros; exact I]. apply thermal_fine. intros S0. rewrite <- Et.
        assert (Nc : n_name c = "scatter").
        { unfold to_reaction in Er.
          destruct (String.eqb_spec (n_name c) "capture"); [discriminate|].
          destruct (String.eqb_spec (n_name c) "scatter"); [auto|].
          destruct (String.eqb_spec (n_name c) "fission"); discriminate. }
        assert (Ec : n_child n "scatter" = c).
        { unfold n_child. destruct (find _ (n_children n)) as [c'|] eqn:Ef.
          - apply find_some in Ef as [Hc' E']. apply String.eqb_eq in E'.
            clear - ND Hc Hc' Nc E'. rewrite <- Nc in E'. revert ND Hc Hc'.
            induction (n_children n) as [|x l IH]; cbn; [contradiction|]. intros ND.
            inversion ND as [|? ? N1 N2]; subst. intros [<-|H1] [<-|H2]; auto.
            + exfalso. apply N1. rewrite <- E'. now apply in_map.
            + exfalso. apply N1. rewrite E'. now apply in_map.
          - apply (find_none _ _ Ef) in Hc. apply String.eqb_neq in Hc. congruence. }
        rewrite Ec in R. apply R; auto. rewrite Et. discriminate.
      + apply fine_bind; [apply evaluation_fine|intros].
        apply fine_bind; [|intros; exact I]. apply when_fine. intros; apply map1_fine.
    - intros rs _. apply fine_bind; [apply evaluation_fine|intros; exact I].
  Qed.

  (** ** The root *)
  Variable e : xml.
  Hypothesis Valid : valid_document L e = true.
  Let root : node := Some (mkH e [Elem "" [] [e] ""]).
  Hypothesis Use : strict = true -> usable X root.

  Lemma root_fits : fits L minimc_type root.
  Proof. unfold valid_document in Valid. now apply andb_prop in Valid as [_ V]. Qed.
  Lemma root_name : x_name e = "minimc".
  Proof. unfold valid_document in Valid. apply andb_prop in Valid as [V _]. now apply String.eqb_eq. Qed.
  Lemma document_root n : n_root n = n_root root -> n_child (n_root n) "minimc" = root.
  Proof.
    intros ->. unfold root. cbn [n_root h_anc h_elem last].
    unfold n_child. cbn [n_children h_elem x_children map find n_name]. rewrite root_name. reflexivity.
  Qed.
  Ltac root_child nm ty req :=
    let K := fresh "K" in
    pose proof (all_child L _ _ _ root nm req ty root_fits ltac:(names_differ)
                  ltac:(cbn; tauto)) as K;
    destruct K as [[K K']|(K & K' & K'')]; [first [discriminate K'|clear K']|].

  Lemma all_names l d u n : fits L (TComplex d u (CAll l)) n -> NoDup (map n_name (n_children n)).
  Proof.
    destruct n as [h|]; [|contradiction]. cbn [fits valid]. intros H.
    apply andb_prop in H as [_ H]. apply andb_prop in H as [H _]. apply andb_prop in H as [_ H].
    apply distinct_spec in H. cbn [n_children]. rewrite map_map. exact H.
  Qed.
  Lemma child_in n nm h : n_child n nm = Some h -> In (Some h) (n_children n) /\ n_name (Some h) = nm.
  Proof.
    unfold n_child. destruct (find _ (n_children n)) as [c|] eqn:F; [|discriminate].
    intros ->. apply find_some in F as [F1 F2]. apply String.eqb_eq in F2. auto.
  Qed.
  Lemma lookup_in n nm h : n_find_by_attr n "name" nm = Some h -> In (Some h) (n_children n).
  Proof.
    unfold n_find_by_attr. destruct (find _ (n_children n)) as [c|] eqn:F; [|discriminate].
    intros ->. now apply find_some in F as [F _].
  Qed.

  (** ** Nuclides *)
  Lemma group_fits :
    (n_name (nuclide_group root) = "multigroup" /\ fits L MultigroupNuclearData (nuclide_group root))
    \/ (n_name (nuclide_group root) = "continuous" /\ fits L ContinuousNuclearData (nuclide_group root)).
  Proof.
    root_child "nuclides" nuclides_type true. unfold nuclide_group.
    pose proof (choice_first L _ _ _ true _ K'') as H.
    apply (choice_children L _ _ _ true _ _ K'') in H as (nm & t & Ht & En & Ft).
    cbn in Ht. destruct Ht as [Ht|[Ht|[]]]; injection Ht as <- <-; auto.
  Qed.
  Lemma nuclide_fine id n : In n (n_children (nuclide_group root)) ->
    fine strict (nuclide_create X id n).
  Proof.
    intros Hn. unfold nuclide_create. apply fine_bind; [|intros; exact I].
    unfold interaction_create. apply fine_foldM. intros acc nm _. cbv zeta.
    destruct (n_child n nm) as [h|] eqn:Ec; cbn [is_null]; [|exact I].
    apply child_in in Ec as [Hc _]. rewrite (parent_child _ _ Hn).
    destruct group_fits as [[En F]|[En F]]; rewrite En; cbn [String.eqb Ascii.eqb Bool.eqb].
    - apply fine_bind; [|intros; exact I].
      apply (choice_children L _ _ _ false _ _ F) in Hn as (nn & t & Ht & _ & Fn).
      cbn in Ht. destruct Ht as [Ht|[]]; injection Ht as <- <-.
      apply (all_children L _ _ _ _ _ Fn) in Hc as (pn & req & t & Ht & _ & Fc).
      cbn in Ht. destruct Ht as [Ht|[Ht|[]]]; injection Ht as <- <- <-; now apply multigroup_fine.
    - apply fine_bind; [|intros; exact I].
      apply continuous_fine.
      + intros S0 Ht. apply (us_libraries _ _ (Use S0) n); auto.
      + apply (choice_children L _ _ _ false _ _ F) in Hn as (nn & t & Ht & _ & Fn).
        cbn in Ht. destruct Ht as [Ht|[]]; injection Ht as <- <-.
        apply (all_children L _ _ _ _ _ Fn) in Hc as (pn & req & t & Ht & _ & Fc).
        cbn in Ht. destruct Ht as [Ht|[Ht|[]]]; injection Ht as <- <- <-;
          now apply all_names in Fc.
  Qed.

  (** ** The world *)
  Lemma cell_fits c : In c (cell_nodes root) ->
    (n_name c = "cell" /\ (exists v, n_attr c "name" = Some v)
     \/ n_name c = "void" /\ n_attr c "name" = None)
    /\ forall s, In s (n_children c) -> n_attr s "sense" = Some "-1" \/ n_attr s "sense" = Some "+1".
  Proof.
    intros Hc. unfold cell_nodes in Hc. root_child "cells" cells_type true.
    apply (choice_children L _ _ _ false _ _ K'') in Hc as (nm & t & Ht & En & Ft).
    assert (Senses : forall d u, fits L (TComplex d u CSGContent) c ->
      forall s, In s (n_children c) -> n_attr s "sense" = Some "-1" \/ n_attr s "sense" = Some "+1").
    { intros d u F s Hs. apply (choice_children L _ _ _ false _ _ F) in Hs as (sn & st & Hs & _ & Fs).
      cbn in Hs. destruct Hs as [Hs|[]]; injection Hs as <- <-.
      destruct (has_attribute L _ _ _ _ "sense" (SEnum ["+1"; "-1"]) Fs ltac:(cbn; tauto)) as (v & Ev).
      rewrite Ev. destruct (typed_attribute L _ _ _ _ _ _ Fs Ev) as (req & ty & Hd & Ok).
      cbn in Hd. destruct Hd as [Hd|[Hd|[]]]; [discriminate|]. injection Hd as <- <-.
      cbn in Ok. rewrite orb_false_r in Ok. apply orb_prop in Ok as [Ok|Ok];
        apply String.eqb_eq in Ok as ->; auto. }
    cbn in Ht. destruct Ht as [Ht|[Ht|[]]]; injection Ht as <- <-.
    - split; [left; split; auto|eapply Senses; exact Ft].
      apply (has_attribute L _ _ _ _ "name" SAny Ft). cbn; tauto.
    - split; [right; split; auto|eapply Senses; exact Ft].
      destruct (n_attr c "name") as [v|] eqn:Ev; auto.
      destruct (typed_attribute L _ _ _ _ _ _ Ft Ev) as (req & ty & [] & _).
  Qed.
  Lemma surface_fine nm : fine strict (surface_create X root nm).
  Proof. unfold surface_create. cbv zeta. destruct (is_null _); exact I. Qed.
  Lemma surfaces_fine : fine strict (create_surfaces X root).
  Proof.
    apply fine_foldM. intros acc n _. cbv zeta. destruct (existsb _ acc); [exact I|].
    apply fine_bind; [apply surface_fine|intros; exact I].
  Qed.
  Lemma material_node_fine nm : fine strict (material_node root nm).
  Proof. unfold material_node. cbv zeta. destruct (is_null _); exact I. Qed.
  Lemma nuclides_fine : fine strict (create_nuclides X root).
  Proof.
    apply fine_foldM. intros acc c _. apply fine_bind; [apply material_node_fine|]. intros m _.
    apply fine_foldM. clear acc. intros acc n _. unfold create_nuclide_step. cbv zeta.
    destruct (existsb _ acc); [exact I|]. fold (nuclide_group root).
    destruct (n_find_by_attr (nuclide_group root) "name" _) as [h|] eqn:F; cbn [is_null]; [|exact I].
    apply lookup_in in F. apply fine_bind; [now apply nuclide_fine|intros; exact I].
  Qed.
  Lemma materials_fine nuclides : create_nuclides X root = Ok nuclides ->
    fine strict (create_materials X root nuclides).
  Proof.
    intros E. apply nuclides_sound in E as [_ K]. apply fine_foldM. intros acc c Hc. cbv zeta.
    destruct (existsb _ acc); [exact I|]. apply fine_bind; [|intros; exact I].
    unfold material_create. apply fine_bind; [apply material_node_fine|]. intros m Em.
    apply fine_bind; [|intros; exact I]. rewrite collect_is.
    destruct (collect_total nu_name nu_id name_of
      (fun n => Ok (as_double X (n_attr n "afrac"))) (fun x => nuclide_address X (nu_id (fst x))) nuclides (n_children m)) as (r & ->).
    - intros n Hn. apply K. exists (as_string (n_attr c "material")), m, n.
      split; [exists c; split; auto; now apply nonvoid_in|]. split; auto.
      unfold material_node in Em. fold (material_group root) in Em.
      pose proof (lookup (material_group root) (as_string (n_attr c "material"))) as Lk.
      cbv zeta in Em. destruct (n_find_by_attr (material_group root) "name" _); cbn [is_null] in Em;
        [|discriminate]. now injection Em as <-.
    - eauto.
    - exact I.
  Qed.
  Lemma temperature_fine : fine strict (create_temperature X (n_child root "temperature")).
  Proof.
    unfold create_temperature. root_child "temperature" ScalarField false; [now rewrite K|].
    destruct (is_null _); [exact I|]. pose proof (choice_first L _ _ _ true _ K'') as H.
    apply (choice_children L _ _ _ true _ _ K'') in H as (nm & t & Ht & En & Ft).
    unfold field_create. rewrite En. cbn in Ht.
    destruct Ht as [Ht|[Ht|[]]]; injection Ht as <- <-; exact I.
  Qed.
  Lemma cells_fine surfaces nuclides materials temperature :
    create_surfaces X root = Ok surfaces -> create_materials X root nuclides = Ok materials ->
    fine strict (create_cells X root surfaces materials temperature).
  Proof.
    intros Es Em. apply surfaces_sound in Es as [_ Ks]. apply materials_sound in Em as [_ Km].
    apply fine_foldM. intros acc c Hc. fold (cell_nodes root) in Hc.
    apply fine_bind; [|intros; exact I]. destruct (cell_fits c Hc) as [Hn Hs].
    unfold cell_create. rewrite assign_is.
    destruct (collect_total su_name su_id name_of sense_of (fun x => surface_address X (su_id (fst x))) surfaces (n_children c)) as (r & ->).
    - intros s H. apply Ks. now exists c, s.
    - intros s H. unfold sense_of. destruct (Hs s H) as [-> | ->]; cbn; eauto.
    - cbn [bind]. unfold assign_material.
      destruct Hn as [[Hn [v ->]]|[_ ->]]; [|exact I].
      destruct (find _ materials) as [m|] eqn:F; [exact I|]. exfalso.
      assert (In (as_string (n_attr c "material")) (map m_name materials)) as H.
      { apply Km. exists c. split; auto. split; auto. rewrite Hn. discriminate. }
      apply in_map_iff in H as (m & E & H). apply (find_none _ _ F) in H.
      rewrite E, String.eqb_refl in H. discriminate.
  Qed.
  Lemma world_fine : fine strict (world_create X root).
  Proof.
    unfold world_create. apply fine_bind; [apply surfaces_fine|]. intros surfaces Es.
    apply fine_bind; [apply nuclides_fine|]. intros nuclides En.
    apply fine_bind; [now apply materials_fine|]. intros materials Em.
    apply fine_bind; [apply temperature_fine|]. intros temperature _.
    apply fine_bind; [now apply (cells_fine surfaces nuclides)|]. intros; exact I.
  Qed.

  (** ** Perturbations *)
  Lemma perturbation_named c : In c (n_children (n_child root "perturbations")) ->
    n_name c = "total".
  Proof.
    intros Hc.
    root_child "perturbations" (TComplex [] true PerturbationDefinition) false;
      [now rewrite K in Hc|].
    apply (choice_children L _ _ _ false _ _ K'') in Hc as (nm & t & Ht & En & _).
    cbn in Ht. destruct Ht as [Ht|[]]; injection Ht as <- _. exact En.
  Qed.
  Lemma perturbation_fine w id c : world_create X root = Ok w ->
    In c (n_children (n_child root "perturbations")) ->
    fine strict (perturbation_create w id c)
    /\ (strict = true -> exists pt, perturbation_create w id c = Ok pt).
  Proof.
    intros Ew Hc. unfold perturbation_create. rewrite (perturbation_named c Hc), String.eqb_refl.
    assert (T : strict = true -> exists nu, find_nuclide w (as_string (n_attr c "nuclide")) = Ok nu).
    { intros S0. pose proof (us_nuclides _ _ (Use S0) c Hc) as U.
      apply world_parts in Ew as (_ & En & _). apply nuclides_sound in En as [_ Kn].
      apply Kn in U. unfold attribute in U. unfold find_nuclide.
      destruct (find _ (w_nuclides w)) as [nu|] eqn:F; [eauto|]. exfalso.
      apply in_map_iff in U as (nu & E & H). apply (find_none _ _ F) in H.
      rewrite E, String.eqb_refl in H. discriminate. }
    assert (Fd : fine strict (find_nuclide w (as_string (n_attr c "nuclide")))).
    { unfold find_nuclide. destruct (find _ (w_nuclides w)); exact I. }
    split.
    - apply fine_noexcept; [apply fine_bind; [exact Fd|intros; exact I]|].
      intros S0. destruct (T S0) as (nu & ->). cbn. eauto.
    - intros S0. destruct (T S0) as (nu & ->). cbn. eauto.
  Qed.
  Lemma perturbations_fine w : world_create X root = Ok w ->
    fine strict (noexcept (perturbations_create w (n_child root "perturbations"))).
  Proof.
    intros Ew. apply fine_noexcept.
    - apply fine_foldM. intros acc c Hc. apply fine_bind; [|intros; exact I].
      now apply perturbation_fine.
    - intros S0. apply foldM_total. intros acc c Hc.
      destruct (perturbation_fine w (length acc) c Ew Hc) as [_ T]. destruct (T S0) as (pt & ->).
      cbn. eauto.
  Qed.
  Lemma perturbation_names (w : world A) n pts : perturbations_create w n = Ok pts ->
    map pt_name pts = map name_of (n_children n).
  Proof.
    unfold perturbations_create.
    enough (G : forall l acc, foldM (fun acc c => let! pt := perturbation_create w (length acc) c in
        Ok (acc ++ [pt])%list) l acc = Ok pts -> map pt_name pts = (map pt_name acc ++ map name_of l)%list).
    { intros E. apply (G _ []) in E. exact E. }
    induction l as [|c l IH]; intros acc E; cbn in E.
    - injection E as <-. now rewrite app_nil_r.
    - apply bind_ok in E as (acc' & E' & E). apply bind_ok in E' as (pt & Ep & [= <-]).
      apply IH in E. rewrite E, map_app, <- app_assoc. cbn. do 2 f_equal.
      unfold perturbation_create in Ep. apply -> @noexcept_ok in Ep.
      destruct (String.eqb _ _); [|discriminate]. apply bind_ok in Ep as (nu & _ & [= <-]).
      reflexivity.
  Qed.

  (** ** Estimators *)
  Lemma boundaries_fine path prev l : fine strict (check_boundaries (show_real X) path prev l).
  Proof.
    revert prev. induction l as [|b l IH]; intros prev; cbn; [exact I|].
    destruct (nleb A b prev); [exact I|]. apply fine_bind; [apply IH|intros; exact I].
  Qed.
  Lemma boundaries_total path prev l : rising prev l ->
    check_boundaries (show_real X) path prev l = Ok l.
  Proof.
    revert prev. induction l as [|b l IH]; intros prev; cbn; [reflexivity|].
    intros [-> H]. now rewrite (IH _ H).
  Qed.
  Lemma bins_fine n :
    n = None \/ (exists d u c, fits L (TComplex d u (COnce BinChoice)) c /\ n = n_first_child c) ->
    fine strict (bins_create X n) /\ (rising_bins X n -> exists b, bins_create X n = Ok b).
  Proof.
    intros [->|(d & u & c & F & ->)]; [split; [exact I|cbn; eauto]|].
    pose proof (choice_first L _ _ _ true _ F) as H.
    assert (Nn : n_first_child c <> None).
    { intros E. rewrite E in H. apply children_in in H as (? & ? & ? & ? & _). discriminate. }
    apply (choice_children L _ _ _ true _ _ F) in H as (nm & t & Ht & En & Ft).
    unfold bins_create, rising_bins. cbv zeta. rewrite En. cbn in Ht.
    destruct Ht as [Ht|[Ht|[Ht|[]]]]; injection Ht as <- _; cbn [String.eqb Ascii.eqb Bool.eqb].
    - unfold make_linspace. cbv zeta. split.
      + destruct (nleb A _ _); exact I.
      + intros R. rewrite R by exact Nn. eauto.
    - unfold make_logspace. cbv zeta. split.
      + destruct (nleb A _ _); exact I.
      + intros R. rewrite R by exact Nn. eauto.
    - unfold make_boundaries. split.
      + apply fine_bind; [apply boundaries_fine|intros; exact I].
      + intros R. rewrite (boundaries_total _ _ _ R). cbn. eauto.
  Qed.
  Lemma pbins_fine n : n = None \/ fits L ParticleBinType n ->
    (strict = true -> rising_bins X (n_first_child (n_child n "cosine"))
                      /\ rising_bins X (n_first_child (n_child n "energy"))) ->
    fine strict (pbins_create X n) /\ (strict = true -> exists b, pbins_create X n = Ok b).
  Proof.
    intros Hn R. unfold pbins_create. cbv zeta.
    assert (Kind : forall nm, nm = "cosine" \/ nm = "energy" ->
      n_first_child (n_child n nm) = None
      \/ exists d u c, fits L (TComplex d u (COnce BinChoice)) c
                       /\ n_first_child (n_child n nm) = n_first_child c).
    { intros nm Hnm. destruct Hn as [->|F]; [now left|].
      destruct Hnm as [-> | ->].
      - destruct (all_child L _ _ _ _ "cosine" false (TComplex [required "u" SDouble;
          required "v" SDouble; required "w" SDouble] false (COnce BinChoice)) F
          ltac:(names_differ) ltac:(cbn; tauto)) as [[-> _]|(_ & _ & Fc)]; [now left|right; eauto 6].
      - destruct (all_child L _ _ _ _ "energy" false (TComplex [] false (COnce BinChoice)) F
          ltac:(names_differ) ltac:(cbn; tauto)) as [[-> _]|(_ & _ & Fc)]; [now left|right; eauto 6]. }
    destruct (bins_fine _ (Kind "cosine" (or_introl eq_refl))) as [F1 T1].
    destruct (bins_fine _ (Kind "energy" (or_intror eq_refl))) as [F2 T2].
    assert (T : strict = true -> exists b,
      bind (bins_create X (n_first_child (n_child n "cosine"))) (fun c =>
       bind (bins_create X (n_first_child (n_child n "energy"))) (fun e =>
       Ok (make_pbins
             (if is_null (n_child n "cosine") then None
              else Some (dir_xyz (as_double X (n_attr (n_child n "cosine") "u"))
                         (as_double X (n_attr (n_child n "cosine") "v"))
                         (as_double X (n_attr (n_child n "cosine") "w")))) c e))) = Ok b).
    { intros S0. destruct (R S0) as [R1 R2]. destruct (T1 R1) as (b1 & ->), (T2 R2) as (b2 & ->).
      cbn [bind]. eauto. }
    split.
    - apply fine_noexcept; [|exact T].
      apply fine_bind; [exact F1|intros]. apply fine_bind; [exact F2|intros; exact I].
    - intros S0. destruct (T S0) as (b & ->). cbn. eauto.
  Qed.
  Lemma estimator_fine (w : world A) pts n : perturbations_create w (n_child root "perturbations") = Ok pts ->
    In n (n_children (n_child root "estimators")) -> fine strict (estimator_create X w pts n).
  Proof.
    intros Ep Hn. apply perturbation_names in Ep.
    assert (F : n_name n = "current" /\ (n_child n "bins" = None \/ fits L ParticleBinType (n_child n "bins"))).
    { root_child "estimators" (TComplex [] true EstimatorDefinition) false.
      { rewrite K in Hn. destruct Hn. }
      apply (choice_children L _ _ _ false _ _ K'') in Hn as (nm & t & Ht & En & Ft).
      cbn in Ht. destruct Ht as [Ht|[]]; injection Ht as <- <-. split; auto.
      destruct (all_child L _ _ _ _ "bins" false ParticleBinType Ft
        ltac:(names_differ) ltac:(cbn; tauto)) as [[H _]|(_ & _ & H)]; auto. }
    destruct F as [En Fb]. unfold estimator_create. rewrite En, String.eqb_refl.
    destruct (pbins_fine _ Fb) as [F1 T1].
    { intros S0. apply (us_bins _ _ (Use S0) n Hn). }
    assert (Fs : forall est s, In s (n_children (n_child n "sensitivities")) ->
      fine strict (sensitivity_create pts est 0 s)
      /\ (strict = true -> exists sn, sensitivity_create pts est 0 s = Ok sn)).
    { intros est s Hs. unfold sensitivity_create. cbv zeta.
      assert (Pn : n_parent (n_parent s) = n).
      { rewrite (parent_child _ _ Hs). destruct (n_child n "sensitivities") as [h|] eqn:Ec.
        - apply child_in in Ec as [Hc _]. apply (parent_child _ _ Hc).
        - destruct Hs. }
      rewrite Pn, En, String.eqb_refl. split.
      - apply fine_bind; [|intros; exact I]. unfold find_perturbation.
        destruct (find _ pts); exact I.
      - intros S0. destruct (us_sensitivities _ _ (Use S0) n s Hn Hs) as (c & Hc & Nc).
        unfold attribute in Nc. unfold find_perturbation.
        destruct (find _ pts) as [pt|] eqn:Fd; [cbn; eauto|]. exfalso.
        assert (H : In (name_of c) (map pt_name pts)) by (rewrite Ep; now apply in_map).
        unfold name_of in H. rewrite Nc in H. cbn [as_string] in H.
        apply in_map_iff in H as (pt & E & H). apply (find_none _ _ Fd) in H.
        rewrite E, String.eqb_refl in H. discriminate. }
    apply fine_bind.
    - apply fine_noexcept.
      + apply fine_bind; [exact F1|]. intros b _. cbv zeta. apply fine_bind; [|intros; exact I].
        apply fine_mapM. intros s Hs. now apply Fs.
      + intros S0. destruct (T1 S0) as (b & ->). cbn [bind]. cbv zeta.
        destruct (mapM_total (sensitivity_create pts
          (new_scorable (as_string (n_attr n "name")) b) 0)
          (n_children (n_child n "sensitivities"))) as (r & ->); [|cbn; eauto].
        intros s Hs. now apply Fs.
    - intros [est sens] _. apply fine_bind; [|intros; exact I].
      unfold find_surface. destruct (find _ (w_surfaces w)); exact I.
  Qed.

  (** ** Sources and drivers *)
  Lemma source_fine n : fits L SourceDistributionType n -> n_root n = n_root root ->
    fine strict (source_create X n).
  Proof.
    intros F Rn. unfold source_create.
    assert (First : forall nm l, In (nm, true, TComplex [] false (COnce l))
        [one "position" (TComplex [] false (COnce [("constant", PointType)]));
         one "direction" (TComplex [] false (COnce
           [("constant", PointType); ("isotropic", TAny); ("isotropic-flux", PointType)]));
         one "energy" (TComplex [] false (COnce
           [("constant", leaf_type [required "energy" SPositive])]));
         one "particletype" (TComplex [] false (COnce
           [("constant", leaf_type [optional "type" ParticleType])]))] ->
      n_root (n_child n nm) = n_root root
      /\ In (n_name (n_first_child (n_child n nm))) (map fst l)).
    { intros nm l Hl. destruct (all_child L _ _ _ _ nm true _ F ltac:(names_differ) Hl)
        as [[_ H]|(Hc & _ & H)]; [discriminate|].
      split; [rewrite (root_children _ _ Hc); exact Rn|].
      pose proof (choice_first L _ _ _ true _ H) as Hf.
      apply (choice_children L _ _ _ true _ _ H) in Hf as (cn & t & Ht & -> & _).
      apply (in_map fst) in Ht. exact Ht. }
    apply fine_bind.
    { unfold position_create. cbv zeta. destruct (First "position" _ ltac:(cbn; tauto)) as [_ H].
      cbn in H. destruct H as [<-|[]]. exact I. }
    intros pos _. apply fine_bind.
    { unfold direction_create. cbv zeta. destruct (First "direction" _ ltac:(cbn; tauto)) as [_ H].
      cbn in H. destruct H as [<-|[<-|[<-|[]]]]; exact I. }
    intros dir _. apply fine_bind.
    { unfold energy_create. cbv zeta. destruct (First "energy" _ ltac:(cbn; tauto)) as [Re H].
      cbn in H. destruct H as [<-|[]]. cbn [String.eqb Ascii.eqb Bool.eqb].
      rewrite (document_root _ Re). fold (nuclide_group root).
      destruct (Lib (as_string (n_attr (n_first_child (n_child n "energy")) "energy")))
        as (_ & _ & L1 & L2).
      destruct group_fits as [[-> _]|[-> _]]; cbn [String.eqb Ascii.eqb Bool.eqb];
        (apply fine_bind; [now apply reported_fine|intros; exact I]). }
    intros en _. apply fine_bind; [|intros; exact I].
    unfold type_create. cbv zeta. destruct (First "particletype" _ ltac:(cbn; tauto)) as [_ H].
    cbn in H. destruct H as [<-|[]]. exact I.
  Qed.
  Lemma tracking_fine w : fine strict (tracking_create (A := A) root w).
  Proof.
    unfold tracking_create. cbv zeta. root_child "general" general_type true.
    assert (T : n_text (n_child (n_child root "general") "tracking") = ""
      \/ n_text (n_child (n_child root "general") "tracking") = "surface"
      \/ n_text (n_child (n_child root "general") "tracking") = "cell delta").
    { destruct (all_child L _ _ _ _ "tracking" false (TSimple TrackingType) K''
        ltac:(names_differ) ltac:(cbn; tauto)) as [[-> _]|(_ & _ & H)]; [now left|right].
      apply simple_text in H. cbn in H. rewrite orb_false_r in H.
      apply orb_prop in H as [H|H]; apply String.eqb_eq in H; auto. }
    destruct T as [-> | [-> | ->]]; cbn [String.eqb Ascii.eqb Bool.eqb orb]; try exact I;
      destruct (has_constant_temperature w); exact I.
  Qed.
  Lemma driver_fine src : fits L SourceDistributionType src -> n_root src = n_root root ->
    fine strict (driver_create X root src).
  Proof.
    intros F Rs. unfold driver_create. apply fine_bind; [apply world_fine|]. intros w Ew.
    apply fine_bind; [now apply perturbations_fine|]. intros pts Ep.
    apply -> @noexcept_ok in Ep. cbv zeta.
    apply fine_bind; [apply reported_fine, Lib|]. intros batch _.
    apply fine_bind; [apply reported_fine, Lib|]. intros sd _.
    apply fine_bind.
    { unfold estimator_set_create. apply fine_bind; [|intros; exact I].
      apply fine_mapM. intros n Hn. now apply estimator_fine. }
    intros init _. apply fine_bind; [apply reported_fine, Lib|]. intros threads _.
    apply fine_bind; [apply tracking_fine|]. intros t _.
    apply fine_bind; [now apply source_fine|]. intros; exact I.
  Qed.
End Reading.

Section Problem.
  Context {A : Arith} {G : Rng A}.
  Variables (V : Env A) (strict : bool).
  Hypothesis Lib : library_returns (env_ext V).
  Hypothesis Axes : no_empty_axis (env_ext V).

  Lemma problem_fine path root : open_document V path = Ok root ->
    (strict = true -> usable (env_ext V) root) ->
    fine strict (create_problem (G := G) V root).
  Proof.
    unfold open_document. destruct (env_document V path) as [e|]; [|discriminate].
    destruct (valid_document (env_lexical V) e) eqn:Valid; [|discriminate].
    intros [= <-] Use. unfold create_problem. cbv zeta.
    set (root := Some (mkH e [Elem "" [] [e] ""])) in *.
    pose proof (root_fits _ e Valid) as Fr. fold root in Fr.
    destruct (all_child _ _ _ _ root "problemtype" true problem_type Fr ltac:(names_differ)
      ltac:(cbn; tauto)) as [[_ H]|(Hc & _ & F)]; [discriminate|].
    pose proof (once_children _ _ _ _ _ F) as Only.
    pose proof (choice_first _ _ _ _ true _ F) as H.
    pose proof (choice_children _ _ _ _ true _ _ F H) as (nm & t & Ht & En & Ft).
    assert (Child : n_child (n_child root "problemtype") nm = n_first_child (n_child root "problemtype")).
    { unfold n_child at 1. rewrite Only. cbn [find]. now rewrite En, String.eqb_refl. }
    assert (Rp : n_root (n_first_child (n_child root "problemtype")) = n_root root).
    { rewrite (root_children _ _ H), (root_children _ _ Hc). reflexivity. }
    rewrite En. cbn in Ht. destruct Ht as [Ht|[Ht|[]]]; injection Ht as <- <-;
      cbn [String.eqb Ascii.eqb Bool.eqb].
    - apply fine_bind; [|intros; exact I]. unfold fixed_source_create. rewrite Child.
      now apply (driver_fine (env_lexical V) (env_ext V) strict Lib Axes e Valid Use).
    - destruct (all_child _ _ _ _ (n_first_child (n_child root "problemtype")) "initialsource" true
        SourceDistributionType Ft ltac:(names_differ) ltac:(cbn; tauto)) as [[_ H']|(Hs & _ & Fs)];
        [discriminate|].
      assert (D : fine strict (driver_create (env_ext V) root
        (n_child (n_child (n_child root "problemtype") "keigenvalue") "initialsource"))).
      { rewrite Child. apply (driver_fine (env_lexical V) (env_ext V) strict Lib Axes e Valid Use);
          auto. rewrite (root_children _ _ Hs). exact Rp. }
      apply fine_bind; [exact D|]. intros dr _. apply fine_bind; [|intros; exact I].
      unfold keigen_create. cbv zeta. apply fine_bind; [exact D|intros; exact I].
  Qed.
End Problem.

Lemma C75_defined_proof :
  forall (A : Arith) (G : Rng A) (V : Env A) (path : string) (root : node),
  library_returns (env_ext V) -> no_empty_axis (env_ext V) ->
  open_document V path = Ok root ->
  defined (create_problem (G := G) V root).
Proof.
  intros A G V path root Lib Axes E. apply fine_defined.
  apply (problem_fine V false Lib Axes path root E). discriminate.
Qed.

Lemma C75_reported_partial_proof :
  forall (A : Arith) (G : Rng A) (V : Env A) (path : string) (root : node),
  library_returns (env_ext V) -> no_empty_axis (env_ext V) ->
  open_document V path = Ok root -> usable (env_ext V) root ->
  reported (create_problem (G := G) V root).
Proof.
  intros A G V path root Lib Axes E U. apply fine_reported.
  apply (problem_fine V true Lib Axes path root E). auto.
Qed.

(** ** What a document that was read says *)
Lemma names_nodup (l : list node) :
  (forall n, In n l -> n_attr n "name" <> None) ->
  NoDup (flat_map (fun m => match n_attr m "name" with Some v => [v] | None => [] end) l) ->
  NoDup (map (fun n => as_string (n_attr n "name")) l).
Proof.
  intros H. replace (flat_map _ l) with (map (fun n => as_string (n_attr n "name")) l); auto.
  induction l as [|n l IH]; cbn; auto. rewrite IH by (intros; apply H; now right).
  destruct (n_attr n "name") eqn:E; [reflexivity|]. exfalso. apply (H n); auto. now left.
Qed.
Section Said.
  Context {A : Arith}.
  Variables (V : Env A) (path : string) (root : node).
  Hypothesis Open : open_document V path = Ok root.

  Lemma open_fits : fits (env_lexical V) minimc_type root.
  Proof.
    unfold open_document in Open. destruct (env_document V path) as [e|]; [|discriminate].
    destruct (valid_document (env_lexical V) e) eqn:Valid; [|discriminate].
    injection Open as <-. now apply root_fits.
  Qed.
  Lemma said_estimator n : In n (n_children (n_child root "estimators")) ->
    fits (env_lexical V) (TComplex [] true EstimatorDefinition) (n_child root "estimators")
    /\ exists t, In ("current", t) (match EstimatorDefinition with CMany l => l | _ => [] end)
       /\ fits (env_lexical V) t n.
  Proof.
    intros Hn. destruct (all_child _ _ _ _ root "estimators" false (TComplex [] true EstimatorDefinition)
      open_fits ltac:(names_differ) ltac:(cbn; tauto)) as [[K _]|(_ & _ & K)].
    - rewrite K in Hn. destruct Hn.
    - split; auto. apply (choice_children _ _ _ _ false _ _ K) in Hn as (nm & t & Ht & _ & Ft).
      exists t. split; auto. cbn in *. destruct Ht as [Ht|[]]. injection Ht as <- <-. now left.
  Qed.
  Lemma said_names : named_sensitivities root ->
    NoDup (map (fun n => as_string (n_attr n "name")) (n_children (n_child root "estimators")))
    /\ forall n, In n (n_children (n_child root "estimators")) ->
       NoDup (map (fun n => as_string (n_attr n "name")) (n_children (n_child n "sensitivities"))).
  Proof.
    intros Named. split.
    - apply names_nodup.
      + intros n Hn. destruct (said_estimator n Hn) as (_ & t & Ht & Ft). cbn in Ht.
        destruct Ht as [Ht|[]]. injection Ht as <-.
        destruct (has_attribute _ _ _ _ _ "name" SAny Ft ltac:(cbn; tauto)) as (v & ->). discriminate.
      + destruct (all_child _ _ _ _ root "estimators" false (TComplex [] true EstimatorDefinition)
          open_fits ltac:(names_differ) ltac:(cbn; tauto)) as [[K _]|(_ & _ & K)].
        * rewrite K. constructor.
        * apply (unique_names_given _ _ _ _ K).
    - intros n Hn. apply names_nodup; [intros; now apply (Named n)|].
      destruct (said_estimator n Hn) as (_ & t & Ht & Ft). cbn in Ht.
      destruct Ht as [Ht|[]]. injection Ht as <-.
      destruct (all_child _ _ _ _ n "sensitivities" false (TComplex [] true (CMany
          [("perturbation", leaf_type [optional "name" SAny])])) Ft ltac:(names_differ)
          ltac:(cbn; tauto)) as [[K _]|(_ & _ & K)].
      + rewrite K. constructor.
      + apply (unique_names_given _ _ _ _ K).
  Qed.
  Lemma said_number nm : In nm ["histories"; "threads"] ->
    lex_positive_integer (env_lexical V) (n_text (n_child (n_child root "general") nm)) = true.
  Proof.
    intros Hnm. destruct (all_child _ _ _ _ root "general" true general_type open_fits
      ltac:(names_differ) ltac:(cbn; tauto)) as [[_ K]|(_ & _ & K)]; [discriminate|].
    destruct (all_child _ _ _ _ _ nm true (TSimple SPositiveInteger) K
      ltac:(names_differ)) as [[_ K']|(_ & _ & K')]; [|discriminate|exact (simple_text _ _ _ K')].
    cbn in Hnm |- *. destruct Hnm as [<-|[<-|[]]]; tauto.
  Qed.
End Said.

Lemma problem_created {A : Arith} {G : Rng A} (V : Env A) (root : node) (pb : problem (G := G)) : create_problem V root = Ok pb ->
  exists source_node, driver_create (env_ext V) root source_node = Ok (problem_driver pb).
Proof.
  unfold create_problem. cbv zeta. intros E. destruct (String.eqb _ "fixedsource").
  - apply bind_ok in E as (dr & Ed & [= <-]). eexists. exact Ed.
  - destruct (String.eqb _ "keigenvalue"); [|discriminate].
    apply bind_ok in E as (dr & Ed & E). apply bind_ok in E as (ke & _ & [= <-]).
    eexists. exact Ed.
Qed.

Lemma C75_fields_proof :
  forall (A : Arith) (G : Rng A) (V : Env A) (path : string) (root : node) (pb : problem (G := G)),
  agrees (env_lexical V) (env_ext V) -> open_document V path = Ok root ->
  create_problem V root = Ok pb ->
  let dr := problem_driver pb in
  (0 < dr_batchsize dr < 2 ^ 31)%N /\ (0 < dr_threads dr < 2 ^ 64)%N
  /\ (named_sensitivities root -> unique_names (dr_init dr)).
Proof.
  intros A G V path root pb Ag Open E dr.
  destruct (problem_created V root pb E) as (src & Ed).
  destruct (C57_created_proof _ _ _ _ _ Ed) as (_ & U & z & Ez & Eb). fold dr in U, Eb.
  split; [|split].
  - destruct (Ag _ (said_number V path root Open "histories" ltac:(cbn; tauto))) as [K _].
    specialize (K _ Ez). rewrite Eb. unfold of_int. rewrite Z.mod_small by lia. lia.
  - destruct (Ag _ (said_number V path root Open "threads" ltac:(cbn; tauto))) as [_ K].
    apply K. unfold driver_create in Ed.
    apply bind_ok in Ed as (w & _ & Ed). apply bind_ok in Ed as (pts & _ & Ed).
    apply bind_ok in Ed as (z' & _ & Ed). apply bind_ok in Ed as (sd & _ & Ed).
    apply bind_ok in Ed as (init & _ & Ed). apply bind_ok in Ed as (threads & Et & Ed).
    apply bind_ok in Ed as (t & _ & Ed). apply bind_ok in Ed as (so & _ & Ed).
    cbv zeta in Et. unfold dr. injection Ed as <-. exact Et.
  - intros Named. destruct (said_names V path root Open Named) as [N1 N2]. apply U; auto.
Qed.
