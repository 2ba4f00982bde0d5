(** A small problem used by the examples: an absorber fills the half space x < 10, the
    rest is void, and a neutron starts at the origin along x. Its only possible draw is
    one half, so that it flies a distance ln 2 and is captured there. *)
From Coq Require Import Bool String List Reals ZArith NArith Lra Lia.
From Verif Require Import Model.Num Model.Outcome Model.Rng Model.Xml Model.Std Model.Point
  Model.Surface Model.Types Model.Field Model.Particle Model.Multigroup Model.Thermal
  Model.Continuous Model.Material Model.World Model.Perturbation Model.Estimator Model.Transport
  Model.Driver
  Spec.Vec Spec.GeometrySpec Spec.CellSpec Spec.DirectionSpec Spec.RngSpec Spec.SumSpec
  Spec.MultigroupSpec Spec.MaterialSpec Spec.TextExt Spec.TransportSpec
  Proofs.OutcomeLib Proofs.RealLib Proofs.RngProofs Proofs.GeometryProofs Proofs.CellProofs
  Proofs.StreamProofs Proofs.StepLib Proofs.DirectionProofs Proofs.MultigroupProofs
  Proofs.MultigroupReal Proofs.MaterialProofs Proofs.TransportProofs Proofs.WellPosed
  Proofs.CrossingProofs.
Import ListNotations.
Local Open Scope string_scope.
Local Open Scope R_scope.

Definition slab_ext : Ext XRa := text_ext XRa [].
Definition slab_document : node :=
  document [Elem "nuclides" [] [Elem "multigroup" [("groups", "1")]
    [Elem "nuclide" [("name", "absorber")]
       [Elem "neutron" [] [text_node "capture" "1"] ""] ""] ""] ""].
Definition slab_node : node :=
  n_child (n_child (n_child (n_child slab_document "nuclides") "multigroup") "nuclide") "neutron".
Definition slab_data : multigroup XRa :=
  match multigroup_create slab_ext slab_node with
  | Ok m => m
  | _ => mkMultigroup (A := XRa) None None None [] [] 0
  end.
Lemma slab_created : multigroup_create slab_ext slab_node = Ok slab_data.
Proof. reflexivity. Qed.
Lemma slab_groups : groups (written_groups slab_ext slab_node) = [1]%N.
Proof. reflexivity. Qed.
Lemma slab_sensible : sensible_data slab_ext slab_node.
Proof.
  constructor.
  - intros c Hc N. cbn in Hc.
    repeat (destruct Hc as [<-|Hc];
      [first [ exfalso; apply N; reflexivity
             | cbn; repeat constructor; eexists; (split; [reflexivity|decs; lra]) ]|]).
    destruct Hc.
  - intros N. exfalso. apply N. reflexivity.
  - cbn. repeat constructor; cbn; decs; lra.
  - reflexivity.
Qed.
Lemma slab_sigma : sigma slab_ext slab_node Rcapture 1 = 1
  /\ sigma slab_ext slab_node Rscatter 1 = 0 /\ sigma slab_ext slab_node Rfission 1 = 0.
Proof.
  unfold sigma, column_sum, column_below, weight, written_xs.
  rewrite ?slab_groups; cbn; unfold Pos.to_nat; cbn; decs. repeat split; lra.
Qed.

Definition slab_nuclide : nuclide XRa := mkNuclide 0 "absorber" [(neutron, IMultigroup slab_data)].
Definition slab_material : material XRa :=
  mkMaterial (A := XRa) "absorber" [(slab_nuclide, Fin 1)] (Fin 1).
Definition edge : surf XRa := mkSurf 0 (mkSurface "edge" (PlaneX (Fin 10 : num XRa))).
Definition warmth : field XRa := constant_field (Fin 300 : num XRa).
Definition slab : cell XRa := mkCell 0 "slab" [(edge, true)] (Some slab_material) warmth.
Definition outside : cell XRa := mkCell 1 "" [(edge, false)] None warmth.
Definition slab_world : world XRa :=
  mkWorld [edge] [slab_nuclide] [slab_material] warmth [slab; outside].

Lemma edge_sense (x : vec) b :
  contains (s_shape (su_surface edge)) (pt x) = b <-> (if b then vx x < 10 else 10 <= vx x).
Proof.
  change (contains (PlaneX (A := XRa) (Fin 10)) (pt x) = b
          <-> (if b then vx x < 10 else 10 <= vx x)).
  rewrite planex_contains. destruct (Rltb_spec (vx x) 10), b; split; intros; auto; try lra;
    discriminate.
Qed.
Lemma in_slab x : inside slab (pt x) <-> vx x < 10.
Proof.
  split.
  - intros H. apply (edge_sense x true). apply (H edge true). now left.
  - intros H s b [[= <- <-]|[]]. now apply (edge_sense x true).
Qed.
Lemma in_outside x : inside outside (pt x) <-> 10 <= vx x.
Proof.
  split.
  - intros H. apply (edge_sense x false). apply (H edge false). now left.
  - intros H s b [[= <- <-]|[]]. now apply (edge_sense x false).
Qed.

Lemma slab_plain : plain_geometry slab_world.
Proof.
  constructor.
  - intros c s [<-|[<-|[]]] (b & [[= <- _]|[]]); constructor.
  - intros c m [<-|[<-|[]]] E; discriminate.
  - intros x. destruct (Rlt_le_dec (vx x) 10).
    + exists slab. split; [now left|]. now apply in_slab.
    + exists outside. split; [right; now left|]. now apply in_outside.
Qed.
Lemma slab_shapes : spheres_and_planes slab_world.
Proof. intros c s [<-|[<-|[]]] (b & [[= <- _]|[]]); constructor. Qed.
Lemma slab_disjoint : disjoint_cells slab_world.
Proof.
  intros c c' x [<-|[<-|[]]] [<-|[<-|[]]]; rewrite ?in_slab, ?in_outside; intros; auto; lra.
Qed.
Lemma slab_multigroup : multigroup_world slab_ext [1]%N slab_world.
Proof.
  intros c m [<-|[<-|[]]] [= <-]. split; [|split; [discriminate|]].
  - exists 1. split; [reflexivity|lra].
  - intros nu a [[= <- <-]|[]]. split; [exists 1; split; [reflexivity|lra]|].
    exists slab_node, slab_data. split; [reflexivity|]. split; [exact slab_created|].
    split; [exact slab_sensible|]. split; [exact slab_groups|].
    intros g [<-|[]]. destruct slab_sigma as (-> & -> & ->). lra.
Qed.

Definition slab_start : particle XRa half_rng :=
  new_particle (G := half_rng) (pt (V3 0 0 0)) (pt (V3 1 0 0)) (Group 1) neutron 1 None.
Lemma start_neutron : group_neutron [1]%N slab_start.
Proof.
  constructor.
  - reflexivity.
  - exists 1%N. split; [reflexivity|now left].
  - exists (V3 0 0 0). reflexivity.
  - exists (V3 1 0 0). split; [reflexivity|apply unit_x].
Qed.
Lemma start_cell : first_cell slab_world (p_position slab_start) slab.
Proof.
  exists [], [outside]. split; [reflexivity|]. split; [|intros ? []].
  apply (in_slab (V3 0 0 0)). cbn. lra.
Qed.
Lemma half_valid : valid_rng half_rng.
Proof. apply open_valid, half_open. Qed.

Lemma ln2_bounds : / 2 < ln 2 < 1.
Proof.
  split; [exact ln_lt_2|]. rewrite <- (ln_exp 1). apply ln_increasing; [lra|].
  pose proof (exp_ineq1 1 ltac:(lra)). lra.
Qed.

Lemma same_rng {A : Arith} {G : Rng A} (p : particle A G) s : same_here p (set_rng p s).
Proof. constructor; reflexivity. Qed.

(** The step of the walk, with either tracking. *)
Lemma slab_step t fuel (p : particle XRa half_rng) :
  p_cell p = Some slab -> p_position p = pt (V3 0 0 0) -> p_direction p = pt (V3 1 0 0) ->
  group_neutron [1]%N p ->
  exists q, transport_step t fuel slab_world p = Ok q /\ p_event q = capture
    /\ p_position q = pt (V3 (ln 2) 0 0) /\ p_cell q = Some slab
    /\ p_secondaries q = p_secondaries p.
Proof.
  intros Ec Ex Eu Hn.
  assert (L : live half_rng [1]%N slab_world p).
  { constructor; auto. exists slab, slab_material. split; auto. split; [now left|reflexivity]. }
  assert (Gm : forall p0 : particle XRa half_rng, p_cell p0 = Some slab ->
            get_material p0 = Ok slab_material).
  { intros p0 E0. unfold get_material, get_cell. rewrite E0. reflexivity. }
  assert (T : mat_total slab_material p = Ok (Fin 1) /\ mat_majorant slab_material p = Ok (Fin 1)).
  { destruct (material_total half_rng slab_ext [1]%N slab_material p
      (slab_multigroup slab slab_material (or_introl eq_refl) eq_refl) Hn)
      as (_ & T & _ & E1 & E2 & E3).
    assert (T = 1).
    { rewrite <- E3. cbn [m_afracs slab_material]. rewrite weighted_cons. unfold weighted. cbn.
      destruct (C21_total_reals_proof half_rng slab_ext slab_node slab_data p 1 slab_created
        slab_sensible) as [Et _].
      { rewrite slab_groups. now left. }
      { destruct (gn_group _ _ Hn) as (g & Eg & [<-|[]]). exact Eg. }
      destruct slab_sigma as (S1 & S2 & S3). rewrite S1, S2, S3 in Et.
      unfold total_at, nu_total, nu_at. rewrite (gn_type _ _ Hn).
      change (fst (slab_nuclide, (Fin 1 : num XRa))) with slab_nuclide.
      change (nu_xs slab_nuclide) with [(neutron, IMultigroup slab_data)].
      cbn [find fst snd ptype_eqb bind]. rewrite Et. cbn. lra. }
    rewrite H in E1, E2. auto. }
  destruct T as [T1 T2]. set (d := ln 2).
  assert (Ed : sample_distance t p = Ok (Fin d, set_rng p (snd (runif half_rng (p_rng p))))).
  { unfold sample_distance, collision_density. rewrite (Gm p Ec). cbn [bind].
    replace (noexcept match t with
      | SurfaceTracking => mat_total slab_material p
      | CellDeltaTracking => mat_majorant slab_material p end) with (Ok (Fin 1 : num XRa)).
    2: { destruct t; [rewrite T1|rewrite T2]; reflexivity. }
    cbn [bind]. change (m_density slab_material) with (Fin 1 : num XRa).
    change (nmul XRa (Fin 1) (Fin 1)) with (Fin (1 * 1)).
    rewrite (exponential_fin half_rng (p_rng p) (1 / 2) (1 * 1) eq_refl ltac:(lra) ltac:(lra)).
    do 3 f_equal. unfold d. replace (1 - 1 / 2) with (/ 2) by lra. rewrite ln_Rinv by lra. lra. }
  pose proof ln2_bounds as Hd. fold d in Hd.
  assert (En : nearest_surface slab (p_position p) (p_direction p) = Ok (edge, Fin 10)).
  { unfold nearest_surface. cbn [c_senses slab min_surface]. do 2 f_equal.
    rewrite Ex, Eu. unfold su_distance.
    etransitivity; [apply (planex_distance 10 (V3 0 0 0) (V3 1 0 0))|].
    cbn [vx]. decide_reals. f_equal. lra. }
  assert (K : forall p1, drew p p1 -> exists q,
    collide (A := XRa) fuel t (Fin d) p1 = Ok q /\ p_event q = capture
    /\ p_position q = pt (V3 d 0 0) /\ p_cell q = Some slab /\ p_secondaries q = p_secondaries p).
  { intros p1 D.
    destruct (collide_live half_rng half_valid slab_ext [1]%N slab_world slab_multigroup fuel t
      p p1 (V3 0 0 0) (V3 1 0 0) d L D Ex Eu unit_x) as (q & Eq & St & Cq & Pq).
    exists q. split; auto.
    replace (along (V3 0 0 0) (V3 1 0 0) d) with (V3 d 0 0) in Pq
      by (unfold along, vadd, vscale; cbn; f_equal; ring).
    unfold collide in Eq. apply bind_ok in Eq as (p2 & E2 & Eq).
    apply bind_ok in Eq as ([nu p3] & E3 & Eq).
    apply stream_ok in E2 as F2.
    unfold stream in E2. apply -> @noexcept_ok in E2. apply bind_ok in E2 as (eff & _ & E2).
    injection E2 as <-. apply sample_nuclide_ok in E3 as (D3 & c & m & a & Ec3 & Em3 & Hin).
    cbn in Ec3. rewrite D in Ec3. cbn in Ec3. rewrite Ec in Ec3. injection Ec3 as <-.
    injection Em3 as <-. destruct Hin as [[= <- <-]|[]].
    unfold nu_interact in Eq. apply -> @noexcept_ok in Eq. apply bind_ok in Eq as (i & Ei & Eq).
    assert (N3 : p_type p3 = neutron /\ p_energy p3 = Group 1).
    { rewrite D3, D. cbn. split; [apply (gn_type _ _ Hn)|].
      destruct (gn_group _ _ Hn) as (g & Eg & [<-|[]]). exact Eg. }
    destruct N3 as [N3 N4]. unfold nu_at in Ei. rewrite N3 in Ei. injection Ei as <-.
    assert (C : p_event q = capture).
    { destruct slab_sigma as (S1 & S2 & S3).
      destruct (C24_reaction_choice_proof half_rng slab_ext slab_node slab_data p3 1 half_valid
        slab_created slab_sensible) as (u & q' & Eu' & Hu & Eq' & Hc & _).
      { rewrite slab_groups. now left. } { exact N4. } { rewrite S1, S2, S3. lra. }
      rewrite Eq in Eq'. injection Eq' as <-. apply Hc. rewrite S1, S2, S3. lra. }
    repeat split; auto. { congruence. }
    rewrite (capture_secondaries half_rng slab_ext slab_node slab_data p3 q 1 half_valid
      slab_created slab_sensible); auto.
    - rewrite D3, D. reflexivity.
    - rewrite slab_groups. now left.
    - destruct slab_sigma as (-> & -> & ->). lra. }
  assert (Gc : forall s, get_cell (set_rng p s) = Ok slab).
  { intros s. unfold get_cell. cbn. rewrite Ec. reflexivity. }
  destruct t; cbn [transport_step].
  - unfold surface_step. change (num XRa) with xr in *. rewrite Ed. cbn [bind]. rewrite Gc.
    cbn [bind]. change (p_position (set_rng p ?s)) with (p_position p).
    change (p_direction (set_rng p ?s)) with (p_direction p). rewrite En. cbn [bind].
    replace (nltb XRa (Fin d) (Fin 10)) with true by (symmetry; apply Rltb_true; lra).
    apply K. reflexivity.
  - unfold delta_step. change (num XRa) with xr in *. rewrite Ed. cbn [bind]. rewrite Gc.
    cbn [bind]. change (p_position (set_rng p ?s)) with (p_position p).
    change (p_direction (set_rng p ?s)) with (p_direction p). rewrite En. cbn [bind].
    replace (nltb XRa (Fin 10) (Fin d)) with false by (symmetry; apply Rltb_false; lra).
    rewrite Gm by exact Ec. cbn [bind].
    assert (T1' : forall s, mat_total slab_material (set_rng p s) = Ok (Fin 1 : xr)).
    { intros s. exact (eq_trans (same_mat_total slab_material p _ (same_rng p s)) T1). }
    assert (T2' : forall s, mat_majorant slab_material (set_rng p s) = Ok (Fin 1 : xr)).
    { intros s. exact (eq_trans (same_mat_majorant slab_material p _ (same_rng p s)) T2). }
    rewrite T1', T2'. cbn [bind]. unfold bernoulli.
    change (runif half_rng (p_rng (set_rng p (snd (runif half_rng (p_rng p))))))
      with (Fin (1 / 2), p_rng p). cbn [bind].
    match goal with |- context [if ?b then collide _ _ _ _ else _] => replace b with true end.
    2: { cbn. rewrite Reqb_false by lra. symmetry. apply Rltb_true. lra. }
    apply K. reflexivity.
Qed.

Definition count (n : nat) (_ : particle XRa half_rng) : outcome nat := Ok (S n).

(** The whole walk: one event. *)
Lemma slab_walk t : exists q,
  transport count t 1 slab_world 0%nat slab_start = Ok (1%nat, q) /\ p_event q = capture.
Proof.
  destruct (slab_step t 0 (set_cell slab_start slab)) as (q & E & C & _); try reflexivity.
  { destruct start_neutron; constructor; auto. }
  exists q. split; auto. unfold transport.
  assert (Ef : find_cell slab_world (p_position slab_start) = Ok slab).
  { destruct (find_cell_total slab_world slab_plain (V3 0 0 0)) as (c & Ec & Fc & Hc).
    change (p_position slab_start) with (pt (V3 0 0 0)). rewrite Ec. f_equal.
    assert (In0 : inside c (pt (V3 0 0 0))) by (destruct Fc as (? & ? & _ & I0 & _); exact I0).
    apply (slab_disjoint c slab (V3 0 0 0)); auto; [now left|]. apply in_slab. cbn. lra. }
  rewrite Ef. cbn [bind transport_loop]. change (is_alive (set_cell slab_start slab)) with true.
  rewrite E. cbn [bind count]. unfold is_alive. rewrite C. reflexivity.
Qed.

(** No state of the history is on the surface. *)
Lemma slab_off pts t x :
  reachable t slab_world pts (set_cell (set_perturbations pts slab_start) slab) x ->
  ~ on_own_surface x.
Proof.
  set (p0 := set_cell (set_perturbations pts slab_start) slab). intros H.
  assert (K : x = p0 \/ is_alive x = false /\ p_position x = pt (V3 (ln 2) 0 0)
              /\ p_cell x = Some slab /\ p_secondaries x = []).
  { induction H as [|fuel x y Hx IH Al E|x s c Hx IH Hs Fc].
    - now left.
    - destruct IH as [->|(D & _)]; [|congruence]. right.
      destruct (slab_step t fuel p0) as (q & Eq & C & P & Q & S0); try reflexivity.
      { destruct start_neutron; constructor; auto. }
      rewrite E in Eq. injection Eq as <-. repeat split; auto. unfold is_alive. now rewrite C.
    - destruct IH as [->|(_ & _ & _ & S0)]; [destruct Hs|]. rewrite S0 in Hs. destruct Hs. }
  pose proof ln2_bounds as B. intros (c & s & v & Ec & (b & Hb) & Ev & On).
  assert (E : vx v < 10 /\ c = slab).
  { destruct K as [->|(_ & P & Q & _)].
    - injection Ec as <-. injection Ev as Ex Ey Ez. split; auto. rewrite <- Ex. lra.
    - rewrite Q in Ec. injection Ec as <-. rewrite P in Ev. injection Ev as Ex Ey Ez.
      split; auto. rewrite <- Ex. lra. }
  destruct E as [Hv ->]. destruct Hb as [[= <- _]|[]]. cbn in On. unfold on_planex in On. lra.
Qed.
