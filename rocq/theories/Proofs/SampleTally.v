(** The sample problem with an estimator: a neutron starts half a unit before the
    surface of the absorber, and its only possible draw takes it through the
    surface. The current through the surface is counted, with a sensitivity to the
    total cross section of the absorber. *)
From Coq Require Import Bool String List Reals ZArith NArith Lra Lia.
From Verif Require Import Model.Num Model.Outcome Model.Rng Model.Xml Model.Std Model.Point
  Model.Surface Model.Types Model.Bins Model.Field Model.Particle Model.Multigroup
  Model.Continuous Model.Material Model.World Model.Perturbation Model.Estimator Model.Transport
  Model.Driver
  Spec.Vec Spec.GeometrySpec Spec.CellSpec Spec.DirectionSpec Spec.RngSpec Spec.SumSpec
  Spec.MultigroupSpec Spec.MaterialSpec Spec.TextExt Spec.TransportSpec Spec.HistorySpec
  Spec.EstimatorSpec
  Proofs.OutcomeLib Proofs.RealLib Proofs.RngProofs Proofs.GeometryProofs Proofs.CellProofs
  Proofs.StreamProofs Proofs.StepLib Proofs.DirectionProofs Proofs.MultigroupProofs
  Proofs.MultigroupReal Proofs.MaterialProofs Proofs.TransportProofs Proofs.WellPosed
  Proofs.CrossingProofs Proofs.SampleProblem Proofs.FuelProofs Proofs.HistoryProofs
  Proofs.EstimatorProofs.
Import ListNotations.
Local Open Scope string_scope.
Local Open Scope R_scope.

Lemma slab_total (G : Rng XRa) (p : particle XRa G) :
  group_neutron [1]%N p ->
  mat_total slab_material p = Ok (Fin 1) /\ mat_majorant slab_material p = Ok (Fin 1).
Proof.
  intros Hn.
  destruct (material_total G slab_ext [1]%N slab_material p
    (slab_multigroup slab slab_material (or_introl eq_refl) eq_refl) Hn)
    as (_ & T & _ & E1 & E2 & E3).
  assert (T = 1).
  { rewrite <- E3. cbn [m_afracs slab_material]. rewrite weighted_cons. unfold weighted. cbn.
    destruct (C21_total_reals_proof G slab_ext slab_node slab_data p 1 slab_created
      slab_sensible) as [Et _].
    { rewrite slab_groups. now left. }
    { destruct (gn_group _ _ Hn) as (g & Eg & [<-|[]]). exact Eg. }
    destruct slab_sigma as (S1 & S2 & S3). rewrite S1, S2, S3 in Et.
    unfold total_at, nu_total, nu_at. rewrite (gn_type _ _ Hn).
    change (fst (slab_nuclide, (Fin 1 : num XRa))) with slab_nuclide.
    change (nu_xs slab_nuclide) with [(neutron, IMultigroup slab_data)].
    cbn [find fst snd ptype_eqb bind]. rewrite Et. cbn. lra. }
  rewrite H in E1, E2. auto.
Qed.

Definition more : perturbation XRa := mkPert 0 "more" slab_nuclide.
Definition tally_node : node := n_child (document [group "estimators"
  [Elem "current" [("name", "through"); ("surface", "edge")]
     [group "sensitivities" [leaf "perturbation" [("name", "more")]]] ""]]) "estimators".
Definition one_bin : particle_bins XRa := make_pbins None NoBins NoBins.
Definition tally (name : string) (x y : R) : scorable XRa :=
  mkScorable (A := XRa) name one_bin [Fin x] [Fin y].
(** The estimator with the sums and sums of squares [x], [y] of the estimator and
    [u], [v] of the sensitivity. *)
Definition tallies (weight x y u v : R) : estimator_set XRa :=
  mkEstSet (A := XRa)
    [mkEst (tally "through" x y) 0 [mkSens (tally "through::more" u v) 0 0]] (Fin weight).
Lemma tallies_created n :
  estimator_set_create slab_ext slab_world [more] (Fin n) tally_node
  = Ok (tallies n 0 0 0 0).
Proof. reflexivity. Qed.

(** One turn of the transport loop: the neutron leaks through the surface. *)
Definition effect (k : R) : R := 1 / 1 - (1 / 2 + k).
Lemma leak_step fuel (p : particle XRa half_rng) k :
  nudge (A := XRa) = Fin k ->
  p_cell p = Some slab -> p_position p = pt (V3 (19 / 2) 0 0) -> p_direction p = pt (V3 1 0 0) ->
  group_neutron [1]%N p -> p_indirect p = [(more, Fin 0)] ->
  exists q, transport_step SurfaceTracking fuel slab_world p = Ok q /\ p_event q = leak
    /\ p_surface q = Some 0%nat /\ p_indirect q = [(more, Fin (0 + effect k))]
    /\ p_secondaries q = p_secondaries p /\ p_position q = pt (V3 (10 + k) 0 0)
    /\ p_cell q = Some outside.
Proof.
  intros Ek Ec Ex Eu Hn Ei.
  assert (Hk : 0 < k).
  { destruct nudge_fin as (k' & E' & H'). rewrite Ek in E'. now injection E' as ->. }
  assert (Gm : forall p0 : particle XRa half_rng, p_cell p0 = Some slab ->
            get_material p0 = Ok slab_material).
  { intros p0 E0. unfold get_material, get_cell. rewrite E0. reflexivity. }
  destruct (slab_total half_rng p Hn) as [T1 _].
  assert (Ed : sample_distance SurfaceTracking p
               = Ok (Fin (ln 2), set_rng p (snd (runif half_rng (p_rng p))))).
  { unfold sample_distance, collision_density. rewrite (Gm p Ec). cbn [bind]. rewrite T1.
    cbn [noexcept bind]. change (m_density slab_material) with (Fin 1 : num XRa).
    change (nmul XRa (Fin 1) (Fin 1)) with (Fin (1 * 1)).
    rewrite (exponential_fin half_rng (p_rng p) (1 / 2) (1 * 1) eq_refl ltac:(lra) ltac:(lra)).
    do 3 f_equal. replace (1 - 1 / 2) with (/ 2) by lra. rewrite ln_Rinv by lra. lra. }
  pose proof ln2_bounds as Hd.
  assert (En : nearest_surface slab (p_position p) (p_direction p) = Ok (edge, Fin (1 / 2))).
  { unfold nearest_surface. cbn [c_senses slab min_surface]. do 2 f_equal.
    rewrite Ex, Eu. unfold su_distance.
    etransitivity; [apply (planex_distance 10 (V3 (19 / 2) 0 0) (V3 1 0 0))|].
    cbn [vx]. decide_reals. f_equal. lra. }
  assert (Gc : forall s, get_cell (set_rng p s) = Ok slab).
  { intros s. unfold get_cell. cbn. rewrite Ec. reflexivity. }
  cbn [transport_step]. unfold surface_step. change (num XRa) with xr in *. rewrite Ed. cbn [bind].
  rewrite Gc. cbn [bind]. change (p_position (set_rng p ?s)) with (p_position p).
  change (p_direction (set_rng p ?s)) with (p_direction p). rewrite En. cbn [bind].
  replace (nltb XRa (Fin (ln 2)) (Fin (1 / 2))) with false by (symmetry; apply Rltb_false; lra).
  set (p1 := set_rng p _).
  unfold cross_surface. rewrite Ek. change (nadd XRa (Fin (1 / 2)) (Fin k)) with (Fin (1 / 2 + k)).
  assert (Es : stream SurfaceTracking p1 (Fin (1 / 2 + k))
    = Ok (set_position (set_indirect p1 [(more, Fin (0 + effect k))]) (pt (V3 (10 + k) 0 0)))).
  { unfold stream. change (p_indirect p1) with (p_indirect p). rewrite Ei. cbn [mapM].
    unfold pert_stream. rewrite (Gm p1) by exact Ec. cbn [bind fst snd].
    change (existsb _ (m_afracs slab_material)) with true.
    unfold collision_density. rewrite (Gm p1) by exact Ec. cbn [bind].
    change (num XRa) with xr.
    rewrite (eq_trans (same_mat_total slab_material p p1 (same_rng p _)) T1).
    cbn [noexcept bind]. f_equal. f_equal.
    - f_equal. do 2 f_equal. cbn. rewrite Reqb_false by lra. unfold effect. cbn.
      reflexivity.
    - change (p_position p1) with (p_position p). change (p_direction p1) with (p_direction p).
      rewrite Ex, Eu. unfold padd, pscale, pt. cbn. f_equal; f_equal; lra. }
  change (num XRa) with xr. rewrite Es. cbn [bind].
  match goal with |- context [find_cell slab_world ?y] => change y with (pt (V3 (10 + k) 0 0)) end.
  assert (Ef : find_cell slab_world (pt (V3 (10 + k) 0 0)) = Ok outside).
  { destruct (find_cell_total slab_world slab_plain (V3 (10 + k) 0 0)) as (c & Ec' & Fc & Hc).
    rewrite Ec'. f_equal.
    assert (In0 : inside c (pt (V3 (10 + k) 0 0))) by (destruct Fc as (? & ? & _ & I0 & _); exact I0).
    apply (slab_disjoint c outside (V3 (10 + k) 0 0)); auto; [right; now left|].
    apply in_outside. cbn. lra. }
  rewrite Ef. cbn [bind]. eexists. split; [reflexivity|]. repeat split; reflexivity.
Qed.

(** The driver: two histories, on two workers. *)
Definition near_edge : source XRa :=
  mkSource (A := XRa) (pt (V3 (19 / 2) 0 0)) (DirConstant (A := XRa) (pt (V3 1 0 0))) (Group 1) neutron.
Definition slab_driver : @driver XRa :=
  mkDriver (A := XRa) slab_world [more] 2 1 (tallies 2 0 0 0 0) 2 SurfaceTracking near_edge.

Lemma near_edge_start i : exists p : particle XRa half_rng,
  history_start slab_driver i = p /\ group_neutron [1]%N p
  /\ p_position p = pt (V3 (19 / 2) 0 0) /\ p_direction p = pt (V3 1 0 0)
  /\ p_secondaries p = [] /\ p_event p = birth /\ p_cell p = None.
Proof.
  eexists. split; [reflexivity|]. split; [|repeat split; reflexivity]. constructor.
  - reflexivity.
  - exists 1%N. split; [reflexivity|now left].
  - eexists. reflexivity.
  - exists (V3 1 0 0). split; [reflexivity|apply unit_x].
Qed.

(** Any history scores one, and the effect weighted by one. *)
Lemma slab_history k fuel weight x y u v i :
  nudge (A := XRa) = Fin k ->
  run_history (G := half_rng) slab_driver (S (S fuel)) (tallies weight x y u v) i
  = Ok (tallies weight (x + 1) (y + 1) (u + effect k) (v + effect k * effect k)).
Proof.
  intros Ek. unfold run_history.
  destruct (near_edge_start i) as (p & -> & Hn & Ex & Eu & Es & Eb & Ec).
  cbn [bank_loop rev app]. change (dr_perts slab_driver) with [more].
  change (dr_tracking slab_driver) with SurfaceTracking.
  change (dr_world slab_driver) with slab_world.
  set (p0 := set_perturbations [more] p).
  assert (Ef : find_cell slab_world (p_position p0) = Ok slab).
  { change (p_position p0) with (p_position p). rewrite Ex.
    destruct (find_cell_total slab_world slab_plain (V3 (19/2) 0 0)) as (c & Ec' & Fc & Hc).
    rewrite Ec'. f_equal.
    assert (In0 : inside c (pt (V3 (19/2) 0 0))) by (destruct Fc as (? & ? & _ & I0 & _); exact I0).
    apply (slab_disjoint c slab (V3 (19/2) 0 0)); auto; [now left|]. apply in_slab. cbn. lra. }
  unfold transport. rewrite Ef. cbn [bind transport_loop].
  assert (Al : is_alive (set_cell p0 slab) = true) by (unfold is_alive; cbn; now rewrite Eb).
  rewrite Al.
  destruct (leak_step fuel (set_cell p0 slab) k Ek) as (q & Eq & Ev & Esf & Ei & Esc & _);
    try reflexivity; auto.
  { destruct Hn; constructor; auto. }
  rewrite Eq. cbn [bind].
  assert (Sc : set_proxy_score (tallies weight x y u v) (new_set_proxy (tallies weight x y u v)) q
    = Ok [([(0%N, Fin 1)], [[(0%N, Fin (effect k))]])]).
  { assert (E1 : current_score 0 q = Fin 1).
    { unfold current_score. rewrite Esf, Ev. reflexivity. }
    unfold set_proxy_score, new_set_proxy, tallies. cbn [map ss_estimators combine mapM fst snd bind].
    unfold est_proxy_score. cbn [es_scorable es_surface es_sens new_proxy fst snd map combine mapM].
    cbn [sn_surface sn_pert sn_scorable]. unfold sens_score, get_indirect. rewrite Ei.
    cbn [find fst snd pt_id more Nat.eqb sn_surface sn_pert bind]. change (num XRa) with xr. rewrite E1.
    assert (P : forall s, s <> 0 -> proxy_score (A := XRa) one_bin (Fin s) [] q = Ok [(0%N, Fin s)]).
    { intros s Hs. unfold proxy_score. cbn [neqb XRa]. cbn. rewrite Reqb_false by auto. reflexivity. }
    change (sc_bins (tally "through" x y)) with one_bin.
    change (sc_bins (tally "through::more" u v)) with one_bin.
    change (nmul XRa (Fin (0 + effect k)) (Fin 1)) with (Fin ((0 + effect k) * 1)).
    assert (effect k <> 0).
    { unfold effect. unfold nudge in Ek. cbn in Ek. decs. injection Ek as <-. lra. }
    change (num XRa) with xr in *.
    rewrite P by lra. cbn [bind]. rewrite P by lra. cbn [bind noexcept]. do 5 f_equal.
    - do 2 f_equal. lra. }
  rewrite Sc. cbn [bind].
  replace (transport_loop (set_proxy_score (tallies weight x y u v)) SurfaceTracking fuel slab_world
    [([(0%N, Fin 1)], [[(0%N, Fin (effect k))]])] q)
    with (Ok ([([(0%N, Fin 1)], [[(0%N, Fin (effect k))]])] : list (est_proxy XRa), q)).
  2: { destruct fuel; cbn [transport_loop]; unfold is_alive; rewrite Ev; reflexivity. }
  cbn [noexcept bind]. rewrite Esc. change (p_secondaries (set_cell p0 slab)) with (p_secondaries p).
  rewrite Es. cbn [app]. destruct fuel; cbn [bank_loop rev bind]; unfold set_commit; cbn;
    unfold tallies, tally; do 5 f_equal.
  all: do 2 f_equal; f_equal; f_equal; lra.
Qed.
