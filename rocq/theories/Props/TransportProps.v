(** Transport of a particle: properties C45-C49, C67, C71 and C74. *)
From Coq Require Import String List Reals ZArith NArith Lra Lia Floats.SpecFloat.
From Verif Require Import Model.Num Model.Outcome Model.Rng Model.Xml Model.Std Model.Point
  Model.Surface Model.Types Model.Field Model.Tables Model.Particle Model.Multigroup
  Model.Continuous Model.Material Model.World Model.Perturbation Model.Estimator
  Model.Transport Model.Driver Spec.Vec Spec.GeometrySpec Spec.CellSpec Spec.RngSpec
  Spec.MultigroupSpec Spec.TextExt Spec.TransportSpec Proofs.RealLib Proofs.OutcomeLib
  Proofs.RngProofs Proofs.GeometryProofs Proofs.StepLib Proofs.TransportProofs Proofs.WellPosed
  Proofs.CrossingProofs Proofs.FlightProofs Proofs.SampleProblem
  Proofs.SampleFlight.
Import ListNotations.
Local Open Scope string_scope.
Local Open Scope R_scope.

(** The examples use the problem of Proofs/SampleProblem.v: an absorber in the half space
    x < 10 and void beyond. *)

(** C45 *)
Theorem C45_walk :
  forall (A : Arith) (G : Rng A) (E : Type) (score : E -> particle A G -> outcome E)
    t fuel w e (p : particle A G) e' q,
  p_event p = birth -> transport score t fuel w e p = Ok (e', q) ->
  exists c visited,
    (* one step after another from the first cell containing the particle *)
    first_cell w (p_position p) c
    /\ chain (one_event t w) (set_cell p c) visited
    /\ visited <> [] /\ last visited p = q
    (* one call of Score for each event, seeing the state after it *)
    /\ foldM score visited e = Ok e'
    (* only the last event ends the walk *)
    /\ ended q /\ List.Forall (fun x => ~ ended x) (removelast visited)
    /\ (forall x, In x visited -> (p_event x = leak <-> in_void x))
    /\ (no_multigroup w (p_type p) -> List.Forall goes_on (removelast visited)).
Proof. exact C45_walk_proof. Qed.
Print Assumptions C45_walk.
Theorem C45_multigroup :
  forall (G : Rng XRa) (X : Ext XRa) Gs (w : world XRa) (E : Type)
    (score : E -> particle XRa G -> outcome E) t fuel e (p : particle XRa G) c m e' q,
  valid_rng G -> multigroup_world X Gs w -> plain_geometry w -> p_event p = birth ->
  group_neutron Gs p -> first_cell w (p_position p) c -> c_material c = Some m ->
  transport score t fuel w e p = Ok (e', q) ->
  exists visited, foldM score visited e = Ok e' /\ last visited p = q
    /\ chain (one_event t w) (set_cell p c) visited
    /\ ended q /\ List.Forall goes_on (removelast visited)
    /\ List.Forall (fun x => p_event x <> virtual_collision) visited.
Proof. exact C45_multigroup_proof. Qed.
Print Assumptions C45_multigroup.

Example C45_case t :
  p_event slab_start = birth
  /\ valid_rng half_rng /\ multigroup_world slab_ext [1]%N slab_world /\ plain_geometry slab_world
  /\ group_neutron [1]%N slab_start
  /\ first_cell slab_world (p_position slab_start) slab
  /\ c_material slab = Some slab_material
  /\ exists q, transport count t 1 slab_world 0%nat slab_start = Ok (1%nat, q)
       /\ p_event q = capture.
Proof.
  split; [reflexivity|]. split; [exact half_valid|]. split; [exact slab_multigroup|].
  split; [exact slab_plain|]. split; [exact start_neutron|]. split; [exact start_cell|].
  split; [reflexivity|]. exact (slab_walk t).
Qed.

(** C46 *)
Theorem C46_recorded_cell :
  forall (A : Arith) (G : Rng A) (E : Type) (score : E -> particle A G -> outcome E)
    t fuel w e (p : particle A G) e' q,
  p_event p = birth -> transport score t fuel w e p = Ok (e', q) ->
  exists c visited, first_cell w (p_position p) c
    /\ foldM score visited e = Ok e' /\ last visited p = q
    /\ chain (fun x y =>
         (* there is material before every step *)
         (exists d m, in_material x d m /\ In d (w_cells w))
         (* a crossing puts the particle into the first cell containing it *)
         /\ (p_event y = surface_cross \/ p_event y = leak ->
             (exists d, p_cell y = Some d /\ first_cell w (p_position y) d)
             (* or no reaction was selected and nothing but the position changed *)
             \/ (~ no_multigroup w (p_type x) /\ p_event y = p_event x /\ p_cell y = p_cell x))
         (* and nothing else changes the recorded cell *)
         /\ (p_cell y = p_cell x
             \/ exists d, p_cell y = Some d /\ first_cell w (p_position y) d))
       (set_cell p c) visited.
Proof. exact C46_recorded_cell_proof. Qed.
Print Assumptions C46_recorded_cell.
Theorem C46_inside :
  forall (G : Rng XRa) (X : Ext XRa) Gs (w : world XRa) (E : Type)
    (score : E -> particle XRa G -> outcome E) fuel e (p : particle XRa G) c m e' q,
  valid_rng G -> multigroup_world X Gs w -> plain_geometry w -> p_event p = birth ->
  group_neutron Gs p -> first_cell w (p_position p) c -> c_material c = Some m ->
  spheres_and_planes w ->
  transport score SurfaceTracking fuel w e p = Ok (e', q) ->
  exists visited, foldM score visited e = Ok e' /\ last visited p = q
    /\ chain (one_event SurfaceTracking w) (set_cell p c) visited
    /\ (List.Forall (fun x => ~ on_own_surface x) (set_cell p c :: removelast visited) ->
        List.Forall inside_own_cell visited).
Proof. exact C46_inside_proof. Qed.
Print Assumptions C46_inside.

Example C46_case :
  spheres_and_planes slab_world /\ p_event slab_start = birth
  /\ (exists q, transport count SurfaceTracking 1 slab_world 0%nat slab_start = Ok (1%nat, q)
        /\ p_event q = capture)
  /\ ~ on_own_surface (set_cell slab_start slab).
Proof.
  split; [exact slab_shapes|]. split; [reflexivity|]. split; [exact (slab_walk SurfaceTracking)|].
  apply (slab_off [] SurfaceTracking). constructor.
Qed.

(** C47: the code compares with the cross section where the flight started. *)
Theorem C47_rejection_partial :
  forall (A : Arith) (G : Rng A) fuel (w : world A) (p q : particle A G) c m M s ds,
  transport_step CellDeltaTracking fuel w p = Ok q ->
  in_material p c m ->
  (* the cell has one temperature *)
  (forall x y, field_at (c_temperature c) x = field_at (c_temperature c) y) ->
  (* the distance drawn with the majorant does not reach the next surface *)
  mat_majorant m p = Ok M ->
  nearest_surface c (p_position p) (p_direction p) = Ok (s, ds) ->
  let (d, s1) := exponential G (nmul A (m_density m) M) (p_rng p) in
  nltb A ds d = false ->
  (* total and majorant at the point of the tentative collision *)
  let site := set_position p (padd (p_position p) (pscale (p_direction p) d)) in
  exists T M', mat_total m site = Ok T /\ mat_majorant m site = Ok M'
  /\ let (v, s2) := runif G s1 in
     if nltb A v (ndiv A T M')
     then exists nu a effects r,
            In (nu, a) (m_afracs m)
            /\ nu_interact fuel nu (set_rng (set_indirect site effects) r) = Ok q
     else p_event q = virtual_collision /\ p_position q = p_position site
          /\ p_cell q = p_cell p /\ same_flight p q.
Proof. exact C47_rejection_partial_proof. Qed.
Print Assumptions C47_rejection_partial.
Theorem C47_rejection_refuted :
  exists (G : Rng XRa) (w : world XRa) (p q : particle XRa G) c m T M,
  valid_rng G /\ first_cell w (p_position p) c /\ in_material p c m
  /\ transport_step CellDeltaTracking 0 w p = Ok q /\ p_event q = virtual_collision
  (* although at the tentative collision point the probability to accept is one *)
  /\ mat_total m q = Ok (Fin T) /\ mat_majorant m q = Ok (Fin M) /\ 0 < M /\ T / M = 1.
Proof. exact C47_rejection_refuted_proof. Qed.
Print Assumptions C47_rejection_refuted.

Example C47_case :
  in_material (set_cell slab_start slab) slab slab_material
  /\ (forall x y, field_at (c_temperature slab) x = field_at (c_temperature slab) y)
  /\ exists q, transport_step CellDeltaTracking 0 slab_world (set_cell slab_start slab) = Ok q.
Proof.
  split; [split; reflexivity|]. split; [reflexivity|].
  destruct (slab_step CellDeltaTracking 0 (set_cell slab_start slab)) as (q & E & _);
    try reflexivity; [|eauto].
  destruct start_neutron; constructor; auto.
Qed.

(** C48 *)
Theorem C48_constant_temperature :
  forall (X : Ext XRa) (root : node) (w : world XRa),
  world_create X root = Ok w ->
  (* accepted: one temperature per cell *)
  (tracking_create root w = Ok SurfaceTracking ->
   forall c (x y : vec), In c (w_cells w) ->
     field_at (c_temperature c) (pt x) = field_at (c_temperature c) (pt y))
  (* rejected: an error if the global temperature varies *)
  /\ (In (n_text (n_child (n_child root "general") "tracking")) ["surface"; ""]%string ->
      (exists x y : vec, field_at (w_temperature w) (pt x) <> field_at (w_temperature w) (pt y)) ->
      exists msg, tracking_create root w = Throw msg).
Proof. exact C48_constant_temperature_proof. Qed.
Print Assumptions C48_constant_temperature.

(** An empty world with a linear temperature, accepted or not. *)
Definition linear_world (g : string) : node :=
  document [Elem "temperature" [] [Elem "linear" []
    [leaf "bounds" [("lower", "0"); ("upper", "1000")];
     leaf "gradient" [("x", g); ("y", "0"); ("z", "0")];
     leaf "intercept" [("b", "300")]] ""] ""].

Example C48_case :
  (exists w, world_create (text_ext XRa []) (linear_world "0") = Ok w
     /\ tracking_create (linear_world "0") w = Ok SurfaceTracking)
  /\ (exists w, world_create (text_ext XRa []) (linear_world "2") = Ok w
     /\ (exists x y : vec,
           field_at (w_temperature w) (pt x) <> field_at (w_temperature w) (pt y))
     /\ tracking_create (linear_world "2") w
        = Throw "Surface tracking with continuous global temperature not allowed").
Proof.
  split.
  - eexists. split; [reflexivity|]. unfold tracking_create. cbn. unfold peqb, point_of_node. cbn. decs. decide_reals.
      reflexivity.
  - eexists. split; [reflexivity|]. split.
    + exists (V3 0 0 0), (V3 1 0 0). cbn. decs. intros [= H]. lra.
    + unfold tracking_create. cbn. unfold peqb, point_of_node. cbn. decs. decide_reals.
      reflexivity.
Qed.

(** C49: in exact arithmetic, and lost in double precision. *)
Theorem C49_plane_crossed :
  forall (c : R) (o u : vec) (d : R) (n : R),
  nudge (A := XRa) = Fin n ->
  distance (PlaneX (A := XRa) (Fin c)) (pt o) (pt u) = Fin d ->
  let after := along o u (d + n) in
  (vx o < c /\ c < vx after \/ c < vx o /\ vx after < c)
  /\ contains (PlaneX (A := XRa) (Fin c)) (pt after)
     = negb (contains (PlaneX (A := XRa) (Fin c)) (pt o)).
Proof. exact C49_plane_crossed_proof. Qed.
Print Assumptions C49_plane_crossed.
Theorem C49_sphere_crossed :
  forall (c : vec) (r : R) (o u : vec) (d n : R),
  0 < r -> unit u -> nudge (A := XRa) = Fin n ->
  distance (Sphere (A := XRa) (pt c) (Fin r)) (pt o) (pt u) = Fin d ->
  let after := along o u (d + n) in
  (* leaving *)
  (dist o c <= r -> r < dist after c)
  (* entering, the sphere being left again after the distance [e] *)
  /\ (forall e, r < dist o c -> d < e -> on_sphere c r (along o u e) ->
      (d + n < e -> dist after c < r) /\ (e < d + n -> r < dist after c)).
Proof. exact C49_sphere_crossed_proof. Qed.
Print Assumptions C49_sphere_crossed.
Theorem C49_step :
  forall (G : Rng XRa) t fuel (w : world XRa) (p q : particle XRa G) c m s (d n rate : R) (o u : vec),
  valid_rng G -> transport_step t fuel w p = Ok q -> in_material p c m ->
  flight_rate t m p (Fin rate : num XRa) -> 0 < rate ->
  p_position p = pt o -> p_direction p = pt u -> unit u ->
  nudge (A := XRa) = Fin n ->
  nearest_surface c (p_position p) (p_direction p) = Ok (s, Fin d) ->
  (* the length drawn for the flight is beyond the surface *)
  (forall v, draw G 0 (p_rng p) = Fin v -> 1 - exp (- (rate * d)) < v) ->
  let shape := s_shape (su_surface s) in
  let after := along o u (d + n) in
  p_position q = pt after
  (* a plane is always left behind *)
  /\ (forall x, shape = PlaneX (A := XRa) (Fin x) ->
      vx o < x /\ x < vx after \/ x < vx o /\ vx after < x)
  (* so is a sphere when it is left *)
  /\ (forall x r, shape = Sphere (A := XRa) (pt x) (Fin r) -> 0 < r -> dist o x <= r ->
      r < dist after x)
  (* and when it is entered and not left again within the nudge *)
  /\ (forall x r e, shape = Sphere (A := XRa) (pt x) (Fin r) -> 0 < r -> r < dist o x ->
      d + n < e -> on_sphere x r (along o u e) -> dist after x < r).
Proof. exact C49_step_proof. Qed.
Print Assumptions C49_step.
Theorem C49_binary64_refuted :
  forall L : Libm,
  let A := F64 L in
  let plane := PlaneX (nofZ A 32) in
  let here := mkPoint (nofZ A 64) (nofZ A 0) (nofZ A 0) in
  let dir := mkPoint (nopp A (nofZ A 1)) (nofZ A 0) (nofZ A 0) in
  let d := distance plane here dir in
  let after := padd here (pscale dir (nadd A d nudge)) in
  d = nofZ A 32
  (* still on the same side, and the plane will not be met again *)
  /\ contains plane after = contains plane here
  /\ distance plane after dir = ninf A.
Proof. exact C49_binary64_refuted_proof. Qed.
Print Assumptions C49_binary64_refuted.

Example C49_case :
  (exists n, nudge (A := XRa) = Fin n)
  /\ distance (PlaneX (A := XRa) (Fin 10)) (pt (V3 0 0 0)) (pt (V3 1 0 0)) = Fin 10
  /\ distance (Sphere (A := XRa) (pt (V3 5 0 0)) (Fin 2)) (pt (V3 0 0 0)) (pt (V3 1 0 0)) = Fin 3
  /\ on_sphere (V3 5 0 0) 2 (along (V3 0 0 0) (V3 1 0 0) 7).
Proof.
  split; [eexists; reflexivity|]. split; [|split].
  - rewrite planex_distance. cbn [vx]. decide_reals. f_equal. lra.
  - rewrite sphere_distance by apply unit_x.
    replace (2 * dot (vsub (V3 0 0 0) (V3 5 0 0)) (V3 1 0 0)) with (-10) by (unfold dot, vsub; cbn; lra).
    replace (dot (vsub (V3 0 0 0) (V3 5 0 0)) (vsub (V3 0 0 0) (V3 5 0 0)) - 2 * 2) with 21
      by (unfold dot, vsub; cbn; lra).
    destruct (SolveQuadratic_roots 1 (-10) 21) as (r1 & r2 & L & E & ->); [lra|lra|].
    pose proof (E 3) as E3. pose proof (E 7) as E7. unfold quad in E3, E7.
    assert (r1 = 3) by nra. subst r1. decide_reals. reflexivity.
  - unfold on_sphere, dist, norm, along, vsub, dot. cbn.
    replace (_ + _ + _) with (2 * 2) by lra. apply sqrt_square. lra.
Qed.

(** The step of a neutron close to the edge. *)
Example C49_step_case t fuel :
  valid_rng half_rng /\ (exists q, transport_step t fuel slab_world near = Ok q)
  /\ in_material near slab slab_material
  /\ flight_rate t slab_material near (Fin 1 : num XRa)
  /\ p_position near = pt (V3 (99 / 10) 0 0) /\ p_direction near = pt (V3 1 0 0)
  /\ nearest_surface slab (p_position near) (p_direction near) = Ok (edge, Fin (1 / 10))
  /\ (forall v, draw half_rng 0 (p_rng near) = Fin v -> 1 - exp (- (1 * (1 / 10))) < v).
Proof.
  split; [exact half_valid|]. split; [apply near_step|]. split; [split; reflexivity|].
  split; [apply slab_flight_rate, near_neutron|]. split; [reflexivity|]. split; [reflexivity|].
  split; [exact near_edge|exact near_crosses].
Qed.

(** C67: the code does neither; see also C71 for sources in a material. *)
Theorem C67_source_in_void_refuted :
  forall (A : Arith) (G : Rng A) (E : Type) (score : E -> particle A G -> outcome E)
    t fuel (w : world A) e (p : particle A G),
  p_event p = birth ->
  (* in a void cell: a null pointer is dereferenced *)
  (forall c, first_cell w (p_position p) c -> c_material c = None ->
     transport score t (S fuel) w e p = UB)
  (* in no cell: the program is terminated *)
  /\ ((forall c, In c (w_cells w) -> ~ inside c (p_position p)) ->
      transport score t fuel w e p = Terminate).
Proof. exact C67_source_in_void_refuted_proof. Qed.
Print Assumptions C67_source_in_void_refuted.

Example C67_case :
  let there := new_particle (G := half_rng) (pt (V3 20 0 0)) (pt (V3 1 0 0)) (Group 1) neutron 1 None in
  p_event there = birth /\ first_cell slab_world (p_position there) outside
  /\ c_material outside = None
  /\ forall c, In c [slab] -> ~ inside c (p_position there).
Proof.
  cbv zeta. split; [reflexivity|]. split; [|split; [reflexivity|]].
  - exists [slab], []. split; [reflexivity|]. split.
    + apply (in_outside (V3 20 0 0)). cbn. lra.
    + intros c [<-|[]] H. apply (in_slab (V3 20 0 0)) in H. cbn in H. lra.
  - intros c [<-|[]] H. apply (in_slab (V3 20 0 0)) in H. cbn in H. lra.
Qed.

(** C71 *)
Theorem C71_transport_never_fails :
  forall (G : Rng XRa) (X : Ext XRa) Gs (w : world XRa) (E : Type)
    (score : E -> particle XRa G -> outcome E) t fuel e (p : particle XRa G) c m,
  valid_rng G -> multigroup_world X Gs w -> plain_geometry w ->
  (forall e x, exists e', score e x = Ok e') ->
  group_neutron Gs p -> first_cell w (p_position p) c -> c_material c = Some m ->
  transport score t fuel w e p = OutOfFuel
  \/ exists e' q, transport score t fuel w e p = Ok (e', q).
Proof. exact C71_transport_never_fails_proof. Qed.
Print Assumptions C71_transport_never_fails.
Theorem C71_history_never_fails :
  forall (G : Rng XRa) (X : Ext XRa) Gs (E : Type) (score : E -> particle XRa G -> outcome E)
    (dr : @driver XRa) fuel e (p : particle XRa G) c m,
  let w := dr_world dr in let pts := dr_perts dr in
  valid_rng G -> multigroup_world X Gs w -> plain_geometry w ->
  (forall e x, exists e', score e x = Ok e') ->
  dr_tracking dr = SurfaceTracking -> spheres_and_planes w -> disjoint_cells w ->
  group_neutron Gs p -> p_secondaries p = [] ->
  first_cell w (p_position p) c -> c_material c = Some m ->
  (forall x, reachable SurfaceTracking w pts (set_cell (set_perturbations pts p) c) x ->
     ~ on_own_surface x) ->
  bank_loop score dr fuel e [p] = OutOfFuel \/ exists e', bank_loop score dr fuel e [p] = Ok e'.
Proof. exact C71_history_never_fails_proof. Qed.
Print Assumptions C71_history_never_fails.

Example C71_case :
  valid_rng half_rng /\ multigroup_world slab_ext [1]%N slab_world /\ plain_geometry slab_world
  /\ (forall e x, exists e', count e x = Ok e')
  /\ spheres_and_planes slab_world /\ disjoint_cells slab_world
  /\ group_neutron [1]%N slab_start /\ p_secondaries slab_start = []
  /\ first_cell slab_world (p_position slab_start) slab /\ c_material slab = Some slab_material
  /\ (forall x, reachable SurfaceTracking slab_world []
        (set_cell (set_perturbations [] slab_start) slab) x -> ~ on_own_surface x).
Proof.
  split; [exact half_valid|]. split; [exact slab_multigroup|]. split; [exact slab_plain|].
  split; [intros e x; exists (S e); reflexivity|]. split; [exact slab_shapes|].
  split; [exact slab_disjoint|]. split; [exact start_neutron|]. split; [reflexivity|].
  split; [exact start_cell|]. split; [reflexivity|]. intros x. apply slab_off.
Qed.

(** C74 *)
Theorem C74_flight :
  forall (A : Arith) (G : Rng A) t fuel (w : world A) (p q : particle A G) c m s ds rate,
  transport_step t fuel w p = Ok q -> in_material p c m -> flight_rate t m p rate ->
  nearest_surface c (p_position p) (p_direction p) = Ok (s, ds) ->
  (* the first random number of the step fixes the length of the flight *)
  let u := draw G 0 (p_rng p) in
  let d := ndiv A (nopp A (nlog A (nsub A (nofZ A 1) u))) rate in
  (* the two methods differ if both distances are the same, or not comparable *)
  let reaches := match t with
                 | SurfaceTracking => negb (nltb A d ds)
                 | CellDeltaTracking => nltb A ds d
                 end in
  if reaches
  then p_position q = padd (p_position p) (pscale (p_direction p) (nadd A ds nudge))
       /\ p_surface q = Some (su_id s) /\ same_flight p q
       /\ (exists c', first_cell w (p_position q) c' /\ p_cell q = Some c'
           /\ p_event q = match c_material c' with Some _ => surface_cross | None => leak end)
  else p_position q = padd (p_position p) (pscale (p_direction p) d)
       /\ p_surface q = p_surface p /\ p_cell q = Some c.
Proof. exact C74_flight_proof. Qed.
Print Assumptions C74_flight.
Theorem C74_exponential :
  forall (G : Rng XRa) t fuel (w : world XRa) (p q : particle XRa G) c m s ds (rate : R) (o v : vec),
  valid_rng G -> transport_step t fuel w p = Ok q -> in_material p c m ->
  flight_rate t m p (Fin rate : num XRa) -> 0 < rate ->
  p_position p = pt o -> p_direction p = pt v ->
  nearest_surface c (p_position p) (p_direction p) = Ok (s, ds) ->
  exists u x, draw G 0 (p_rng p) = Fin u /\ 0 <= u < 1
    (* the length is longer than y for a part exp(-rate*y) of the random numbers *)
    /\ 0 <= x /\ (forall y, y < x <-> 1 - exp (- (rate * y)) < u)
    (* if it ends before the surface that is where the particle goes *)
    /\ (nltb XRa (Fin x) ds = true -> p_position q = pt (along o v x)
          /\ p_surface q = p_surface p /\ p_cell q = Some c)
    (* and otherwise the particle crosses the surface *)
    /\ (nltb XRa ds (Fin x) = true -> p_surface q = Some (su_id s)
          /\ (p_event q = surface_cross \/ p_event q = leak)).
Proof. exact C74_exponential_proof. Qed.
Print Assumptions C74_exponential.
Theorem C74_transparent :
  forall (G : Rng XRa) t fuel (w : world XRa) (p q : particle XRa G) c m s (d : R),
  open_rng G -> transport_step t fuel w p = Ok q -> in_material p c m ->
  flight_rate t m p (Fin 0 : num XRa) ->
  nearest_surface c (p_position p) (p_direction p) = Ok (s, Fin d) ->
  (* a particle that cannot collide crosses the nearest surface *)
  p_surface q = Some (su_id s) /\ (p_event q = surface_cross \/ p_event q = leak).
Proof. exact C74_transparent_proof. Qed.
Print Assumptions C74_transparent.

Example C74_case t fuel :
  (* a flight that ends in the absorber *)
  (exists q, transport_step t fuel slab_world (set_cell slab_start slab) = Ok q
     /\ p_event q = capture /\ p_position q = pt (V3 (ln 2) 0 0))
  /\ flight_rate t slab_material (set_cell slab_start slab) (Fin 1 : num XRa)
  (* one that ends on the surface *)
  /\ (exists q, transport_step t fuel slab_world near = Ok q)
  /\ nearest_surface slab (p_position near) (p_direction near) = Ok (edge, Fin (1 / 10))
  (* and one in a material of zero cross section *)
  /\ open_rng half_rng /\ (exists q, transport_step t fuel clear_world in_clear = Ok q)
  /\ in_material in_clear clear_cell clear_material
  /\ flight_rate t clear_material in_clear (Fin 0 : num XRa)
  /\ nearest_surface clear_cell (p_position in_clear) (p_direction in_clear)
     = Ok (edge, Fin (1 / 10)).
Proof.
  assert (N : group_neutron [1]%N (set_cell slab_start slab))
    by (destruct start_neutron; constructor; auto).
  split. { destruct (slab_step t fuel (set_cell slab_start slab)) as (q & E & C & P & _); auto. eauto. }
  split; [now apply slab_flight_rate|]. split; [apply near_step|]. split; [exact near_edge|].
  split; [exact half_open|]. split; [apply clear_step|]. split; [split; reflexivity|].
  split; [apply clear_flight_rate|exact near_edge].
Qed.
