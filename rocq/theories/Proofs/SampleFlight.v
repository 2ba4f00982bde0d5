(** Cases for the properties of flights: a neutron close to the edge of the absorber of
    Proofs/SampleProblem.v, and the same geometry filled with a material of zero cross
    section. *)
From Coq Require Import Bool String List Reals ZArith NArith Lra Lia.
From Verif Require Import Model.Num Model.Outcome Model.Rng Model.Xml Model.Std Model.Point
  Model.Surface Model.Types Model.Field Model.Particle Model.Multigroup Model.Thermal
  Model.Continuous Model.Material Model.World Model.Perturbation Model.Estimator Model.Transport
  Spec.Vec Spec.GeometrySpec Spec.CellSpec Spec.RngSpec Spec.SumSpec
  Spec.MultigroupSpec Spec.MaterialSpec Spec.TextExt Spec.TransportSpec
  Proofs.OutcomeLib Proofs.RealLib Proofs.RngProofs Proofs.GeometryProofs
  Proofs.MultigroupReal Proofs.MaterialProofs Proofs.TransportProofs Proofs.WellPosed
  Proofs.SampleProblem.
Import ListNotations.
Local Open Scope string_scope.
Local Open Scope R_scope.

Definition near : particle XRa half_rng :=
  set_cell (new_particle (G := half_rng) (pt (V3 (99 / 10) 0 0)) (pt (V3 1 0 0)) (Group 1) neutron 1 None)
    slab.
Lemma near_neutron : group_neutron [1]%N near.
Proof.
  constructor.
  - reflexivity.
  - exists 1%N. split; [reflexivity|now left].
  - exists (V3 (99 / 10) 0 0). reflexivity.
  - exists (V3 1 0 0). split; [reflexivity|apply unit_x].
Qed.
Lemma near_step t fuel : exists q, transport_step t fuel slab_world near = Ok q.
Proof.
  destruct (step_live half_rng half_valid slab_ext [1]%N slab_world slab_multigroup slab_plain
    t fuel near) as (q & E & _); [|eauto].
  constructor; [exact near_neutron|]. exists slab, slab_material.
  split; [reflexivity|]. split; [now left|reflexivity].
Qed.
Lemma slab_flight_rate t (p : particle XRa half_rng) : group_neutron [1]%N p ->
  flight_rate t slab_material p (Fin 1 : num XRa).
Proof.
  intros Hn.
  destruct (material_total half_rng slab_ext [1]%N slab_material p
      (slab_multigroup slab slab_material (or_introl eq_refl) eq_refl) Hn)
      as (_ & T & _ & E1 & E2 & E3).
  assert (T = 1).
  { rewrite <- E3. cbn [m_afracs slab_material]. rewrite weighted_cons. unfold weighted. cbn.
    destruct (C21_total_reals_proof half_rng slab_ext slab_node slab_data p 1 slab_created
      slab_sensible) as [Et _].
    { rewrite slab_groups. now left. }
    { destruct (gn_group _ _ Hn) as (g & Eg & [<-|[]]). exact Eg. }
    destruct slab_sigma as (S1 & S2 & S3). rewrite S1, S2, S3 in Et.
    unfold total_at, nu_total, nu_at. rewrite (gn_type _ _ Hn).
    change (fst (slab_nuclide, (Fin 1 : num XRa))) with slab_nuclide.
    change (nu_xs slab_nuclide) with [(neutron, IMultigroup slab_data)].
    cbn [find fst snd ptype_eqb bind]. rewrite Et. cbn. lra. }
  rewrite H in E1, E2. exists (Fin 1). split; [destruct t; [exact E1|exact E2]|].
  change (Fin 1 = Fin (1 * 1)). f_equal. ring.
Qed.
Lemma near_edge : nearest_surface slab (p_position near) (p_direction near) = Ok (edge, Fin (1 / 10)).
Proof.
  unfold nearest_surface. cbn [c_senses slab min_surface]. do 2 f_equal. unfold su_distance.
  etransitivity; [apply (planex_distance 10 (V3 (99 / 10) 0 0) (V3 1 0 0))|].
  cbn [vx]. decide_reals. f_equal. lra.
Qed.
(** The length of the flight, ln 2, is beyond the edge. *)
Lemma near_crosses v : draw half_rng 0 (p_rng near) = Fin v -> 1 - exp (- (1 * (1 / 10))) < v.
Proof.
  intros [= <-]. pose proof (exp_ineq1 (- (1 * (1 / 10))) ltac:(lra)). lra.
Qed.

(** A material that does nothing. *)
Definition clear_node : node :=
  n_child (n_child (n_child (n_child
    (document [Elem "nuclides" [] [Elem "multigroup" [("groups", "1")]
      [Elem "nuclide" [("name", "nothing")]
         [Elem "neutron" [] [text_node "capture" "0"] ""] ""] ""] ""])
    "nuclides") "multigroup") "nuclide") "neutron".
Definition clear_data : multigroup XRa :=
  match multigroup_create slab_ext clear_node with
  | Ok m => m
  | _ => mkMultigroup (A := XRa) None None None [] [] 0
  end.
Lemma clear_created : multigroup_create slab_ext clear_node = Ok clear_data.
Proof. reflexivity. Qed.
Lemma clear_groups : groups (written_groups slab_ext clear_node) = [1]%N.
Proof. reflexivity. Qed.
Lemma clear_sensible : sensible_data slab_ext clear_node.
Proof.
  constructor.
  - intros c Hc N. cbn in Hc.
    repeat (destruct Hc as [<-|Hc];
      [first [ exfalso; apply N; reflexivity
             | cbn; repeat constructor; eexists; (split; [reflexivity|decs; lra]) ]|]).
    destruct Hc.
  - intros N. exfalso. apply N. reflexivity.
  - cbn. repeat constructor; cbn; decs; lra.
  - reflexivity.
Qed.
Lemma clear_sigma : sigma slab_ext clear_node Rcapture 1 = 0
  /\ sigma slab_ext clear_node Rscatter 1 = 0 /\ sigma slab_ext clear_node Rfission 1 = 0.
Proof.
  unfold sigma, column_sum, column_below, weight, written_xs.
  rewrite ?clear_groups; cbn; unfold Pos.to_nat; cbn; decs. repeat split; lra.
Qed.
Definition clear_nuclide : nuclide XRa := mkNuclide 0 "nothing" [(neutron, IMultigroup clear_data)].
Definition clear_material : material XRa :=
  mkMaterial (A := XRa) "nothing" [(clear_nuclide, Fin 1)] (Fin 1).
Definition clear_cell : cell XRa := mkCell 0 "clear" [(edge, true)] (Some clear_material) warmth.
Definition clear_world : world XRa :=
  mkWorld [edge] [clear_nuclide] [clear_material] warmth [clear_cell; outside].
Definition in_clear : particle XRa half_rng := set_cell near clear_cell.

Lemma clear_total p : p_type p = neutron -> p_energy p = Group 1 ->
  mat_total (G := half_rng) clear_material p = Ok (Fin 0 : num XRa)
  /\ mat_majorant (G := half_rng) clear_material p = Ok (Fin 0 : num XRa).
Proof.
  intros Et Eg.
  destruct (C21_total_reals_proof half_rng slab_ext clear_node clear_data p 1 clear_created
    clear_sensible) as [E _]; auto.
  { rewrite clear_groups. now left. }
  destruct clear_sigma as (S1 & S2 & S3). rewrite S1, S2, S3 in E.
  assert (N : nu_at (G := half_rng) clear_nuclide p = Ok (IMultigroup clear_data)).
  { unfold nu_at. rewrite Et. reflexivity. }
  assert (T : nu_total clear_nuclide p = Ok (Fin (0 + 0 + 0) : num XRa)).
  { unfold nu_total. rewrite N. cbn [bind]. rewrite E. reflexivity. }
  assert (T' : nu_majorant clear_nuclide p = Ok (Fin (0 + 0 + 0) : num XRa)).
  { unfold nu_majorant. rewrite N. cbn [bind]. unfold mg_get_majorant. rewrite E. reflexivity. }
  unfold mat_total, mat_majorant, sum_afracs. cbn [m_afracs clear_material foldM fst snd bind].
  change (num XRa) with xr in *.
  rewrite T, T'. cbn [bind]. split.
  all: change (Ok (Fin (0 + 1 * (0 + 0 + 0))) = Ok (Fin 0)); do 2 f_equal; ring.
Qed.
Lemma clear_flight_rate t : flight_rate t clear_material in_clear (Fin 0 : num XRa).
Proof.
  destruct (clear_total in_clear eq_refl eq_refl) as [E1 E2]. exists (Fin 0).
  split; [destruct t; [exact E1|exact E2]|]. change (Fin 0 = Fin (1 * 0)). f_equal. ring.
Qed.
Lemma clear_plain : plain_geometry clear_world.
Proof.
  constructor.
  - intros c s [<-|[<-|[]]] (b & [[= <- _]|[]]); constructor.
  - intros c m [<-|[<-|[]]] E; discriminate.
  - intros x. destruct (Rlt_le_dec (vx x) 10).
    + exists clear_cell. split; [now left|]. now apply in_slab.
    + exists outside. split; [right; now left|]. now apply in_outside.
Qed.
Lemma clear_step t fuel : exists q, transport_step t fuel clear_world in_clear = Ok q.
Proof.
  assert (K : exists q, cross_surface t clear_world edge (Fin (1 / 10)) in_clear = Ok q).
  { unfold cross_surface. destruct CrossingProofs.nudge_fin as (n & En & _). rewrite En.
    assert (Es : stream t in_clear (nadd XRa (Fin (1 / 10)) (Fin n : num XRa))
      = Ok (set_position in_clear (pt (V3 (99 / 10 + (1 / 10 + n)) 0 0)))).
    { unfold stream. cbn [p_indirect in_clear near set_cell new_particle mapM bind noexcept].
      do 2 f_equal. unfold padd, pscale, pt. cbn. f_equal; f_equal; ring. }
    change (num XRa) with xr in *. rewrite Es. cbn [bind].
    destruct (find_cell_total clear_world clear_plain (V3 (99 / 10 + (1 / 10 + n)) 0 0)) as (c & Ec & _).
    cbn [p_position set_position]. rewrite Ec. cbn [bind]. eauto. }
  assert (Ed : sample_distance t in_clear = Ok (PInf : num XRa, in_clear)).
  { destruct (clear_total in_clear eq_refl eq_refl) as [E1 E2].
    unfold sample_distance, collision_density.
    change (get_material in_clear) with (Ok clear_material). cbn [bind].
    replace (noexcept match t with
      | SurfaceTracking => mat_total clear_material in_clear
      | CellDeltaTracking => mat_majorant clear_material in_clear end) with (Ok (Fin 0 : num XRa)).
    2: { destruct t; [rewrite E1|rewrite E2]; reflexivity. }
    cbn [bind]. change (m_density clear_material) with (Fin 1 : num XRa).
    unfold exponential. change (runif half_rng (p_rng in_clear)) with (Fin (1 / 2) : xr, p_rng in_clear).
    cbn. unfold xsub. cbn. rewrite Rltb_true by lra. cbn. rewrite (Reqb_true (1 * 0) 0) by ring.
    unfold xsinf.
    assert (ln (1 + - (1 / 2)) < ln 1) by (apply ln_increasing; lra). rewrite ln_1 in H.
    decide_reals. reflexivity. }
  assert (En : nearest_surface clear_cell (p_position in_clear) (p_direction in_clear)
    = Ok (edge, Fin (1 / 10))) by exact near_edge.
  change (num XRa) with xr in *.
  destruct t; cbn [transport_step].
  - unfold surface_step. change (num XRa) with xr in *. rewrite Ed. cbn [bind].
    change (get_cell in_clear) with (Ok clear_cell). cbn [bind]. rewrite En. cbn [bind]. exact K.
  - unfold delta_step. change (num XRa) with xr in *. rewrite Ed. cbn [bind].
    change (get_cell in_clear) with (Ok clear_cell). cbn [bind]. rewrite En. cbn [bind]. exact K.
Qed.
