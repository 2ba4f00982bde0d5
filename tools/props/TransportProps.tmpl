(** Transport of a particle: properties C45-C49, C67, C71 and C74. *)
From Coq Require Import String List Reals ZArith NArith Lra Lia Floats.SpecFloat.
From Verif Require Import Model.Num Model.Outcome Model.Rng Model.Xml Model.Std Model.Point
  Model.Surface Model.Types Model.Field Model.Tables Model.Particle Model.Multigroup
  Model.Continuous Model.Material Model.World Model.Perturbation Model.Estimator
  Model.Transport Model.Driver Spec.Vec Spec.GeometrySpec Spec.CellSpec Spec.RngSpec
  Spec.MultigroupSpec Spec.TextExt Spec.TransportSpec Proofs.RealLib Proofs.OutcomeLib
  Proofs.RngProofs Proofs.GeometryProofs Proofs.StepLib Proofs.TransportProofs Proofs.WellPosed
  Proofs.CrossingProofs Proofs.FlightProofs Proofs.SampleProblem
  Proofs.SampleFlight.
Import ListNotations.
Local Open Scope string_scope.
Local Open Scope R_scope.

(** The examples use the problem of Proofs/SampleProblem.v: an absorber in the half space
    x < 10 and void beyond. *)

(** C45 *)
@@C45_walk
@@C45_multigroup

Example C45_case t :
  p_event slab_start = birth
  /\ valid_rng half_rng /\ multigroup_world slab_ext [1]%N slab_world /\ plain_geometry slab_world
  /\ group_neutron [1]%N slab_start
  /\ first_cell slab_world (p_position slab_start) slab
  /\ c_material slab = Some slab_material
  /\ exists q, transport count t 1 slab_world 0%nat slab_start = Ok (1%nat, q)
       /\ p_event q = capture.
Proof.
  split; [reflexivity|]. split; [exact half_valid|]. split; [exact slab_multigroup|].
  split; [exact slab_plain|]. split; [exact start_neutron|]. split; [exact start_cell|].
  split; [reflexivity|]. exact (slab_walk t).
Qed.

(** C46 *)
@@C46_recorded_cell
@@C46_inside

Example C46_case :
  spheres_and_planes slab_world /\ p_event slab_start = birth
  /\ (exists q, transport count SurfaceTracking 1 slab_world 0%nat slab_start = Ok (1%nat, q)
        /\ p_event q = capture)
  /\ ~ on_own_surface (set_cell slab_start slab).
Proof.
  split; [exact slab_shapes|]. split; [reflexivity|]. split; [exact (slab_walk SurfaceTracking)|].
  apply (slab_off [] SurfaceTracking). constructor.
Qed.

(** C47: the code compares with the cross section where the flight started. *)
@@C47_rejection_partial
@@C47_rejection_refuted

Example C47_case :
  in_material (set_cell slab_start slab) slab slab_material
  /\ (forall x y, field_at (c_temperature slab) x = field_at (c_temperature slab) y)
  /\ exists q, transport_step CellDeltaTracking 0 slab_world (set_cell slab_start slab) = Ok q.
Proof.
  split; [split; reflexivity|]. split; [reflexivity|].
  destruct (slab_step CellDeltaTracking 0 (set_cell slab_start slab)) as (q & E & _);
    try reflexivity; [|eauto].
  destruct start_neutron; constructor; auto.
Qed.

(** C48 *)
@@C48_constant_temperature

(** An empty world with a linear temperature, accepted or not. *)
Definition linear_world (g : string) : node :=
  document [Elem "temperature" [] [Elem "linear" []
    [leaf "bounds" [("lower", "0"); ("upper", "1000")];
     leaf "gradient" [("x", g); ("y", "0"); ("z", "0")];
     leaf "intercept" [("b", "300")]] ""] ""].

Example C48_case :
  (exists w, world_create (text_ext XRa []) (linear_world "0") = Ok w
     /\ tracking_create (linear_world "0") w = Ok SurfaceTracking)
  /\ (exists w, world_create (text_ext XRa []) (linear_world "2") = Ok w
     /\ (exists x y : vec,
           field_at (w_temperature w) (pt x) <> field_at (w_temperature w) (pt y))
     /\ tracking_create (linear_world "2") w
        = Throw "Surface tracking with continuous global temperature not allowed").
Proof.
  split.
  - eexists. split; [reflexivity|]. unfold tracking_create. cbn. unfold peqb, point_of_node. cbn. decs. decide_reals.
      reflexivity.
  - eexists. split; [reflexivity|]. split.
    + exists (V3 0 0 0), (V3 1 0 0). cbn. decs. intros [= H]. lra.
    + unfold tracking_create. cbn. unfold peqb, point_of_node. cbn. decs. decide_reals.
      reflexivity.
Qed.

(** C49: in exact arithmetic, and lost in double precision. *)
@@C49_plane_crossed
@@C49_sphere_crossed
@@C49_step
@@C49_binary64_refuted

Example C49_case :
  (exists n, nudge (A := XRa) = Fin n)
  /\ distance (PlaneX (A := XRa) (Fin 10)) (pt (V3 0 0 0)) (pt (V3 1 0 0)) = Fin 10
  /\ distance (Sphere (A := XRa) (pt (V3 5 0 0)) (Fin 2)) (pt (V3 0 0 0)) (pt (V3 1 0 0)) = Fin 3
  /\ on_sphere (V3 5 0 0) 2 (along (V3 0 0 0) (V3 1 0 0) 7).
Proof.
  split; [eexists; reflexivity|]. split; [|split].
  - rewrite planex_distance. cbn [vx]. decide_reals. f_equal. lra.
  - rewrite sphere_distance by apply unit_x.
    replace (2 * dot (vsub (V3 0 0 0) (V3 5 0 0)) (V3 1 0 0)) with (-10) by (unfold dot, vsub; cbn; lra).
    replace (dot (vsub (V3 0 0 0) (V3 5 0 0)) (vsub (V3 0 0 0) (V3 5 0 0)) - 2 * 2) with 21
      by (unfold dot, vsub; cbn; lra).
    destruct (SolveQuadratic_roots 1 (-10) 21) as (r1 & r2 & L & E & ->); [lra|lra|].
    pose proof (E 3) as E3. pose proof (E 7) as E7. unfold quad in E3, E7.
    assert (r1 = 3) by nra. subst r1. decide_reals. reflexivity.
  - unfold on_sphere, dist, norm, along, vsub, dot. cbn.
    replace (_ + _ + _) with (2 * 2) by lra. apply sqrt_square. lra.
Qed.

(** The step of a neutron close to the edge. *)
Example C49_step_case t fuel :
  valid_rng half_rng /\ (exists q, transport_step t fuel slab_world near = Ok q)
  /\ in_material near slab slab_material
  /\ flight_rate t slab_material near (Fin 1 : num XRa)
  /\ p_position near = pt (V3 (99 / 10) 0 0) /\ p_direction near = pt (V3 1 0 0)
  /\ nearest_surface slab (p_position near) (p_direction near) = Ok (edge, Fin (1 / 10))
  /\ (forall v, draw half_rng 0 (p_rng near) = Fin v -> 1 - exp (- (1 * (1 / 10))) < v).
Proof.
  split; [exact half_valid|]. split; [apply near_step|]. split; [split; reflexivity|].
  split; [apply slab_flight_rate, near_neutron|]. split; [reflexivity|]. split; [reflexivity|].
  split; [exact near_edge|exact near_crosses].
Qed.

(** C67: the code does neither; see also C71 for sources in a material. *)
@@C67_source_in_void_refuted

Example C67_case :
  let there := new_particle (G := half_rng) (pt (V3 20 0 0)) (pt (V3 1 0 0)) (Group 1) neutron 1 None in
  p_event there = birth /\ first_cell slab_world (p_position there) outside
  /\ c_material outside = None
  /\ forall c, In c [slab] -> ~ inside c (p_position there).
Proof.
  cbv zeta. split; [reflexivity|]. split; [|split; [reflexivity|]].
  - exists [slab], []. split; [reflexivity|]. split.
    + apply (in_outside (V3 20 0 0)). cbn. lra.
    + intros c [<-|[]] H. apply (in_slab (V3 20 0 0)) in H. cbn in H. lra.
  - intros c [<-|[]] H. apply (in_slab (V3 20 0 0)) in H. cbn in H. lra.
Qed.

(** C71 *)
@@C71_transport_never_fails
@@C71_history_never_fails

Example C71_case :
  valid_rng half_rng /\ multigroup_world slab_ext [1]%N slab_world /\ plain_geometry slab_world
  /\ (forall e x, exists e', count e x = Ok e')
  /\ spheres_and_planes slab_world /\ disjoint_cells slab_world
  /\ group_neutron [1]%N slab_start /\ p_secondaries slab_start = []
  /\ first_cell slab_world (p_position slab_start) slab /\ c_material slab = Some slab_material
  /\ (forall x, reachable SurfaceTracking slab_world []
        (set_cell (set_perturbations [] slab_start) slab) x -> ~ on_own_surface x).
Proof.
  split; [exact half_valid|]. split; [exact slab_multigroup|]. split; [exact slab_plain|].
  split; [intros e x; exists (S e); reflexivity|]. split; [exact slab_shapes|].
  split; [exact slab_disjoint|]. split; [exact start_neutron|]. split; [reflexivity|].
  split; [exact start_cell|]. split; [reflexivity|]. intros x. apply slab_off.
Qed.

(** C74 *)
@@C74_flight
@@C74_exponential
@@C74_transparent

Example C74_case t fuel :
  (* a flight that ends in the absorber *)
  (exists q, transport_step t fuel slab_world (set_cell slab_start slab) = Ok q
     /\ p_event q = capture /\ p_position q = pt (V3 (ln 2) 0 0))
  /\ flight_rate t slab_material (set_cell slab_start slab) (Fin 1 : num XRa)
  (* one that ends on the surface *)
  /\ (exists q, transport_step t fuel slab_world near = Ok q)
  /\ nearest_surface slab (p_position near) (p_direction near) = Ok (edge, Fin (1 / 10))
  (* and one in a material of zero cross section *)
  /\ open_rng half_rng /\ (exists q, transport_step t fuel clear_world in_clear = Ok q)
  /\ in_material in_clear clear_cell clear_material
  /\ flight_rate t clear_material in_clear (Fin 0 : num XRa)
  /\ nearest_surface clear_cell (p_position in_clear) (p_direction in_clear)
     = Ok (edge, Fin (1 / 10)).
Proof.
  assert (N : group_neutron [1]%N (set_cell slab_start slab))
    by (destruct start_neutron; constructor; auto).
  split. { destruct (slab_step t fuel (set_cell slab_start slab)) as (q & E & C & P & _); auto. eauto. }
  split; [now apply slab_flight_rate|]. split; [apply near_step|]. split; [exact near_edge|].
  split; [exact half_open|]. split; [apply clear_step|]. split; [split; reflexivity|].
  split; [apply clear_flight_rate|exact near_edge].
Qed.
