(** Surfaces, cells and directions: properties C06-C16. *)
From Coq Require Import String List Reals ZArith NArith Lra Lia Permutation SpecFloat.
From Verif Require Import Model.Num Model.Outcome Model.Rng Model.Xml Model.Std Model.Point
  Model.Surface Model.Types Model.Field Model.Particle Model.World Model.Perturbation
  Spec.Vec Spec.GeometrySpec Spec.CellSpec Spec.RngSpec Spec.DirectionSpec Spec.TextExt
  Proofs.RealLib Proofs.GeometryProofs Proofs.CellProofs Proofs.DirectionProofs
  Proofs.StreamProofs Proofs.RngProofs.
Import ListNotations.
Local Open Scope R_scope.

(** C06 *)
Theorem C06_sphere_distance :
  forall (c : vec) (r : R) (o u : vec),
    0 < r -> unit u ->
    let reported := distance (Sphere (pt c) (Fin r)) (pt o) (pt u) in
    let transversal p := crosses_sphere c p u in
    (some_crossing (on_sphere c r) transversal o u ->
       exists d, reported = Fin d /\ first_crossing (on_sphere c r) transversal o u d)
    /\ (~ some_crossing (on_sphere c r) transversal o u -> reported = PInf).
Proof. exact C06_sphere_distance_proof. Qed.
Print Assumptions C06_sphere_distance.

Example C06_case :
  let c := V3 1 2 3 in let o := V3 (-4) 2 3 in let u := V3 1 0 0 in
  0 < 2 /\ unit u /\ some_crossing (on_sphere c 2) (fun p => crosses_sphere c p u) o u.
Proof.
  cbv zeta. split; [lra|split].
  - apply unit_dot; unfold dot; cbn; ring.
  - exists 3. split; [lra|split].
    + unfold on_sphere, dist, norm, dot, along, vsub, vadd, vscale; cbn.
      replace (_ + _) with (2 * 2) by ring. apply sqrt_square; lra.
    + unfold crosses_sphere, dot, along, vsub, vadd, vscale; cbn. lra.
Qed.

(** C07 *)
Theorem C07_planex_distance :
  forall (c : R) (o u : vec),
    let reported := distance (PlaneX (A := XRa) (Fin c)) (pt o) (pt u) in
    let transversal (_ : vec) := vx u <> 0 in
    (some_crossing (on_planex c) transversal o u ->
       exists d, reported = Fin d
         /\ 0 < d /\ on_planex c (along o u d)
         /\ forall t, on_planex c (along o u t) -> t = d)
    /\ (~ some_crossing (on_planex c) transversal o u -> reported = PInf).
Proof. exact C07_planex_distance_proof. Qed.
Print Assumptions C07_planex_distance.

Example C07_case :
  some_crossing (on_planex 2) (fun _ => vx (V3 (-1) 0 0) <> 0) (V3 5 1 1) (V3 (-1) 0 0).
Proof. exists 3. unfold on_planex; cbn. repeat split; lra. Qed.

(** C08 *)
Theorem C08_cylinderx_distance :
  forall (r : R) (o u : vec),
    0 < r -> unit u ->
    let reported := distance (CylinderX (A := XRa) (Fin r)) (pt o) (pt u) in
    let transversal p := crosses_cylinderx p u in
    (some_crossing (on_cylinderx r) transversal o u ->
       exists d, reported = Fin d /\ first_crossing (on_cylinderx r) transversal o u d)
    /\ (~ some_crossing (on_cylinderx r) transversal o u -> reported = PInf)
    /\ (vy u = 0 -> vz u = 0 -> reported = PInf).
Proof. exact C08_cylinderx_distance_proof. Qed.
Print Assumptions C08_cylinderx_distance.

Example C08_case :
  let o := V3 7 (-4) 0 in let u := V3 0 1 0 in
  0 < 3 /\ unit u /\ some_crossing (on_cylinderx 3) (fun p => crosses_cylinderx p u) o u.
Proof.
  cbv zeta. split; [lra|split].
  - apply unit_dot; unfold dot; cbn; ring.
  - exists 1. split; [lra|split].
    + unfold on_cylinderx, axis_distance, along, vadd, vscale; cbn.
      replace (_ + _) with (3 * 3) by ring. apply sqrt_square; lra.
    + unfold crosses_cylinderx, along, vadd, vscale; cbn. lra.
Qed.

(** C09 *)
Theorem C09_side_changes_at_distance :
  forall (s : shape XRa) (o u : vec),
    sphere_or_plane s -> unit u -> ~ on_surface s o ->
    (forall d, distance s (pt o) (pt u) = Fin d ->
       0 < d
       /\ (forall t, 0 <= t < d -> contains s (pt (along o u t)) = contains s (pt o))
       /\ exists eps, 0 < eps /\ forall t, d < t < d + eps ->
            contains s (pt (along o u t)) = negb (contains s (pt o)))
    /\ (distance s (pt o) (pt u) = PInf ->
          forall t, 0 <= t -> contains s (pt (along o u t)) = contains s (pt o))
    /\ (distance s (pt o) (pt u) = PInf \/ exists d, distance s (pt o) (pt u) = Fin d).
Proof. exact C09_side_changes_at_distance_proof. Qed.
Print Assumptions C09_side_changes_at_distance.

Example C09_case :
  let s := Sphere (pt (V3 0 0 0)) (Fin 2) in
  sphere_or_plane s /\ unit (V3 1 0 0) /\ ~ on_surface s (V3 (-3) 0 0)
  /\ exists d, distance s (pt (V3 (-3) 0 0)) (pt (V3 1 0 0)) = Fin d.
Proof.
  cbv zeta. assert (Hu : unit (V3 1 0 0)) by (apply unit_dot; unfold dot; cbn; ring).
  split; [constructor; lra|split; [auto|split]].
  - intros (cv & E & On). apply pt_inj in E; subst cv.
    unfold on_sphere, dist, norm, dot, vsub in On; cbn in On.
    replace (_ + _) with (3 * 3) in On by ring. rewrite sqrt_square in On; lra.
  - destruct (C06_sphere_distance (V3 0 0 0) 2 (V3 (-3) 0 0) (V3 1 0 0)) as [H _]; auto; [lra|].
    destruct H as (d & E & _); [|exists d; exact E].
    exists 1. split; [lra|split].
    + unfold on_sphere, dist, norm, dot, along, vsub, vadd, vscale; cbn.
      replace (_ + _) with (2 * 2) by ring. apply sqrt_square; lra.
    + unfold crosses_sphere, dot, along, vsub, vadd, vscale; cbn. lra.
Qed.

(** C10: false as the code is written. *)
Theorem C10_cylinder_containment_refuted :
  exists (r : R) (p : vec), 0 < r
    /\ contains (CylinderX (A := XRa) (Fin r)) (pt p) = true
    /\ ~ (axis_distance p < r).
Proof. exact C10_cylinder_containment_refuted_proof. Qed.
Print Assumptions C10_cylinder_containment_refuted.

Theorem C10_cylinder_crossing_refuted :
  forall r, 0 < r -> r <> 1 ->
  exists (o u : vec) (d : R),
    unit u /\ distance (CylinderX (A := XRa) (Fin r)) (pt o) (pt u) = Fin d
    /\ exists eps, 0 < eps /\ forall t, Rabs (t - d) < eps ->
         contains (CylinderX (A := XRa) (Fin r)) (pt (along o u t))
         = contains (CylinderX (A := XRa) (Fin r)) (pt (along o u d)).
Proof. exact C10_cylinder_crossing_refuted_proof. Qed.
Print Assumptions C10_cylinder_crossing_refuted.

Theorem C10_cylinder_containment_partial :
  forall (r : R) (p : vec), 0 < r ->
    (contains (CylinderX (A := XRa) (Fin r)) (pt p) = true <-> axis_distance p < r * r)
    /\ (r = 1 ->
        (contains (CylinderX (A := XRa) (Fin r)) (pt p) = true <-> axis_distance p < r)).
Proof. exact C10_cylinder_containment_partial_proof. Qed.
Print Assumptions C10_cylinder_containment_partial.

Example C10_case : 0 < 1 /\ axis_distance (V3 9 (1 / 2) 0) < 1.
Proof.
  split; [lra|]. unfold axis_distance; cbn.
  replace (_ + _) with (1 / 2 * (1 / 2)) by field. rewrite sqrt_square; lra.
Qed.

(** The shell between two spheres on one side of a plane, used below. *)
Definition shell : cell XRa :=
  mkCell 0 "shell"
    [(mkSurf 0 (mkSurface "inner" (Sphere (pt (V3 0 0 0)) (Fin 1))), false);
     (mkSurf 1 (mkSurface "outer" (Sphere (pt (V3 0 0 0)) (Fin 3))), true);
     (mkSurf 2 (mkSurface "wall" (PlaneX (A := XRa) (Fin 0))), false)]
    None (constant_field (A := XRa) (Fin 300)).

Lemma shell_shapes s : surface_of shell s -> sphere_or_plane (s_shape (su_surface s)).
Proof.
  intros [b H]; cbn in H. repeat destruct H as [H|H]; try contradiction; injection H as <- <-;
    cbn; constructor; lra.
Qed.

(** C11 *)
Theorem C11_nearest_surface :
  forall (c : cell XRa) (o u : vec),
    (forall s, surface_of c s -> real_shape (s_shape (su_surface s))) -> unit u ->
    (c_senses c <> [] ->
       exists s d, nearest_surface c (pt o) (pt u) = Ok (s, d)
         /\ surface_of c s /\ d = surf_distance s (pt o) (pt u)
         /\ (forall s', surface_of c s' -> xleb d (surf_distance s' (pt o) (pt u)) = true)
         (* whatever order the surfaces are stored in *)
         /\ forall c', Permutation (c_senses c) (c_senses c') ->
              exists s', nearest_surface c' (pt o) (pt u) = Ok (s', d))
    /\ (c_senses c = [] -> exists msg, nearest_surface c (pt o) (pt u) = Throw msg).
Proof. exact C11_nearest_surface_proof. Qed.
Print Assumptions C11_nearest_surface.

Theorem C11_nearest_surface_binary64 :
  forall (L : Libm) (c : cell (F64 L)) (p d : point (F64 L)),
    (forall s, surface_of c s -> surf_distance s p d <> S754_nan) ->
    c_senses c <> [] ->
    exists s x, nearest_surface c p d = Ok (s, x)
      /\ surface_of c s /\ x = surf_distance s p d
      /\ forall s', surface_of c s' -> SFleb x (surf_distance s' p d) = true.
Proof. exact C11_nearest_surface_binary64_proof. Qed.
Print Assumptions C11_nearest_surface_binary64.

Example C11_case :
  (forall s, surface_of shell s -> real_shape (s_shape (su_surface s)))
  /\ unit (V3 1 0 0) /\ c_senses shell <> [].
Proof.
  split; [|split].
  - intros s H. destruct (shell_shapes s H); constructor; auto.
  - apply unit_dot; unfold dot; cbn; ring.
  - discriminate.
Qed.

Example C11_binary64_case :
  forall L, let z := nofZ (F64 L) in
  let c := mkCell 0 "slab"
    [(mkSurf 0 (mkSurface "left" (PlaneX (A := F64 L) (z 1%Z))), false);
     (mkSurf 1 (mkSurface "right" (PlaneX (A := F64 L) (z 4%Z))), true)]
    None (constant_field (A := F64 L) (z 300%Z)) in
  (forall s, surface_of c s ->
     surf_distance s (mkPoint (z 2%Z) (z 0%Z) (z 0%Z)) (mkPoint (z 1%Z) (z 0%Z) (z 0%Z)) <> S754_nan)
  /\ c_senses c <> [].
Proof.
  intros L; cbv zeta. split; [|discriminate].
  intros s [b H]; cbn in H. repeat destruct H as [H|H]; try contradiction; injection H as <- <-;
    vm_compute; discriminate.
Qed.

(** C12 *)
Theorem C12_flight_stays_in_cell :
  forall (c : cell XRa) (o u : vec) (s : surf XRa) (d : xr) (t : R),
    (forall s, surface_of c s -> sphere_or_plane (s_shape (su_surface s))) -> unit u ->
    inside c (pt o) ->
    (forall s, surface_of c s -> ~ on_surface (s_shape (su_surface s)) o) ->
    nearest_surface c (pt o) (pt u) = Ok (s, d) ->
    0 <= t -> before t d ->
    inside c (pt (along o u t)).
Proof. exact C12_flight_stays_in_cell_proof. Qed.
Print Assumptions C12_flight_stays_in_cell.

Example C12_case :
  let o := V3 2 0 0 in let u := V3 1 0 0 in
  (forall s, surface_of shell s -> sphere_or_plane (s_shape (su_surface s))) /\ unit u
  /\ inside shell (pt o)
  /\ (forall s, surface_of shell s -> ~ on_surface (s_shape (su_surface s)) o)
  /\ exists s d, nearest_surface shell (pt o) (pt u) = Ok (s, d) /\ 0 <= 0 /\ before 0 d.
Proof.
  cbv zeta. assert (Hu : unit (V3 1 0 0)) by (apply unit_dot; unfold dot; cbn; ring).
  split; [exact shell_shapes|split; [auto|split; [|split]]].
  - intros s b H; cbn in H. repeat destruct H as [H|H]; try contradiction; injection H as <- <-;
      cbn [su_surface s_shape]; rewrite ?sphere_contains, ?planex_contains;
      unfold dot, vsub; cbn; (apply Rltb_true || apply Rltb_false); lra.
  - intros s [b H]; cbn in H. repeat destruct H as [H|H]; try contradiction; injection H as <- <-;
      cbn [su_surface s_shape on_surface].
    1,2: intros (cv & E & On); apply pt_inj in E; subst cv;
      unfold on_sphere, dist, norm, dot, vsub in On; cbn in On;
      replace (_ + _) with (2 * 2) in On by ring; rewrite sqrt_square in On; lra.
    unfold on_planex; cbn; lra.
  - destruct (C11_nearest_surface shell (V3 2 0 0) (V3 1 0 0)) as [H _]; auto.
    { intros s H; destruct (shell_shapes s H); constructor; auto. }
    destruct H as (s & d & E & I & D & _); [discriminate|].
    exists s, d. split; [exact E|split; [lra|]]. subst d. unfold surf_distance.
    destruct (real_shape_distance (s_shape (su_surface s)) (V3 2 0 0) (V3 1 0 0))
      as [F|(r & F & P)]; auto.
    + destruct (shell_shapes s I); constructor; auto.
    + rewrite F; exact Logic.I.
    + rewrite F; exact P.
Qed.

(** C13 *)
Theorem C13_point_location :
  forall (A : Arith) (w : world A) (p : point A),
    (forall c, find_cell w p = Ok c <->
       exists before after, w_cells w = (before ++ c :: after)%list
         /\ inside c p /\ forall c', In c' before -> ~ inside c' p)
    /\ ((exists msg, find_cell w p = Throw msg) <-> forall c, In c (w_cells w) -> ~ inside c p).
Proof. exact C13_point_location_proof. Qed.
Print Assumptions C13_point_location.

Theorem C13_point_location_order :
  forall (A : Arith) (w w' : world A) (p : point A) (c : cell A),
    Permutation (w_cells w) (w_cells w') ->
    In c (w_cells w) -> inside c p ->
    (forall c', In c' (w_cells w) -> inside c' p -> c' = c) ->
    find_cell w p = Ok c /\ find_cell w' p = Ok c.
Proof. exact C13_point_location_order_proof. Qed.
Print Assumptions C13_point_location_order.

Example C13_case :
  let other := mkCell 1 "rest" [(mkSurf 2 (mkSurface "wall" (PlaneX (A := XRa) (Fin 0))), true)]
                 None (constant_field (A := XRa) (Fin 300)) in
  let w := mkWorld [] [] [] (constant_field (A := XRa) (Fin 300)) [shell; other] in
  In other (w_cells w) /\ inside other (pt (V3 (-1) 0 0))
  /\ forall c', In c' (w_cells w) -> inside c' (pt (V3 (-1) 0 0)) -> c' = other.
Proof.
  cbv zeta. split; [cbn; auto|split].
  - intros s b H; cbn in H. destruct H as [H|[]]; injection H as <- <-.
    cbn [su_surface s_shape]. rewrite planex_contains; cbn. apply Rltb_true; lra.
  - intros c' [<-|[<-|[]]] I; auto. exfalso.
    specialize (I (mkSurf 2 (mkSurface "wall" (PlaneX (A := XRa) (Fin 0)))) false).
    cbn [su_surface s_shape] in I. rewrite planex_contains in I; cbn in I.
    rewrite Rltb_true in I by lra. discriminate I. auto.
Qed.

(** C14 *)
Theorem C14_directions_are_unit :
  (* from components, from a non-zero vector *)
  (forall v, v <> zero_vec ->
     unit_point (dir_xyz (A := XRa) (Fin (vx v)) (Fin (vy v)) (Fin (vz v)))
     /\ unit_point (dir_of_point (pt v)))
  (* from a node *)
  /\ (forall (X : Ext XRa) (nd : node) v, v <> zero_vec ->
        point_of_node X nd = pt v -> unit_point (dir_of_node X nd))
  (* isotropically *)
  /\ (forall (G : Rng XRa) (s : rst G), valid_rng G -> unit_point (fst (dir_isotropic G s)))
  (* by rotation *)
  /\ (forall d mu phi, unit d -> -1 <= mu <= 1 ->
        unit_point (dir_rotate (A := XRa) (pt d) (Fin mu) (Fin phi))).
Proof. exact C14_directions_are_unit_proof. Qed.
Print Assumptions C14_directions_are_unit.

Example C14_case : V3 0 (-2) 1 <> zero_vec /\ valid_rng (Minstd XRa).
Proof. split; [intros [= H _]; lra|exact minstd_valid]. Qed.

(** C70 *)
Theorem C70_isotropic_direction :
  forall (G : Rng XRa) (s : rst G), valid_rng G ->
  exists u v, draw G 0 s = Fin u /\ 0 <= u < 1 /\ draw G 1 s = Fin v /\ 0 <= v < 1
    (* an isotropic direction has a cosine to the x axis uniform on [-1,1) and an
       azimuth uniform on a full turn *)
    /\ (let mu := 2 * u - 1 in let phi := 2 * PI * v in
        fst (dir_isotropic G s) = pt (V3 mu (sqrt (1 - mu * mu) * cos phi) (sqrt (1 - mu * mu) * sin phi)))
    /\ snd (dir_isotropic G s) = advance G 2 s
    (* a scattered particle turns about its old direction by an angle uniform on a
       full turn *)
    /\ (forall (p : particle XRa G) mu E, p_rng p = s ->
          p_direction (p_scatter p mu E) = dir_rotate (p_direction p) mu (Fin (2 * PI * u))
          /\ p_rng (p_scatter p mu E) = advance G 1 s).
Proof. exact C70_isotropic_direction_proof. Qed.
Print Assumptions C70_isotropic_direction.

Example C70_case : valid_rng (Minstd XRa) /\ valid_rng half_rng.
Proof. split; [exact minstd_valid|exact (open_valid _ half_open)]. Qed.

(** C15 *)
Theorem C15_rotation_cosine :
  forall (d : vec) (mu : R), unit d -> -1 <= mu <= 1 ->
    (* the requested cosine *)
    (forall phi, exists w, dir_rotate (A := XRa) (pt d) (Fin mu) (Fin phi) = pt w
                           /\ unit w /\ dot w d = mu)
    (* every direction of the cone is reached by some azimuth in [0, 2 pi) *)
    /\ (forall w, unit w -> dot w d = mu ->
          exists phi, 0 <= phi < 2 * PI
            /\ dir_rotate (A := XRa) (pt d) (Fin mu) (Fin phi) = pt w)
    (* azimuths pi apart are mirror images about mu * d *)
    /\ (forall phi w w',
          dir_rotate (A := XRa) (pt d) (Fin mu) (Fin phi) = pt w ->
          dir_rotate (A := XRa) (pt d) (Fin mu) (Fin (phi + PI)) = pt w' ->
          vadd w w' = vscale (2 * mu) d).
Proof. exact C15_rotation_cosine_proof. Qed.
Print Assumptions C15_rotation_cosine.

Example C15_case : unit (V3 1 0 0) /\ unit (V3 0 1 0) /\ -1 <= -1 / 3 <= 1.
Proof. repeat split; try lra; apply unit_dot; unfold dot; cbn; ring. Qed.

(** C16 *)
Theorem C16_streaming :
  forall (G : Rng XRa) (method : tracking) (p p' : particle XRa G) (o u : vec) (s : R),
    p_position p = pt o -> p_direction p = pt u ->
    stream method p (Fin s) = Ok p' ->
    p_position p' = pt (along o u s)
    /\ (unit u -> dist (along o u s) o = Rabs s)
    /\ p_direction p' = p_direction p /\ p_energy p' = p_energy p /\ p_type p' = p_type p
    /\ p_cell p' = p_cell p /\ p_event p' = p_event p /\ p_surface p' = p_surface p
    /\ p_rng p' = p_rng p /\ p_secondaries p' = p_secondaries p
    /\ (forall t p1 p2, stream method p' (Fin t) = Ok p1 ->
          stream method p (Fin (s + t)) = Ok p2 ->
          p1 = set_indirect p2 (p_indirect p1)).
Proof. exact C16_streaming_proof. Qed.
Print Assumptions C16_streaming.

Theorem C16_streaming_succeeds :
  forall (A : Arith) (G : Rng A) (method : tracking) (p : particle A G) (s : num A),
    p_indirect p = [] -> exists p', stream method p s = Ok p' /\ p_indirect p' = [].
Proof. exact C16_streaming_succeeds_proof. Qed.
Print Assumptions C16_streaming_succeeds.

Example C16_case :
  exists p p' : particle XRa (Minstd XRa),
    p_position p = pt (V3 1 2 3) /\ p_direction p = pt (V3 0 1 0)
    /\ stream SurfaceTracking p (Fin 4) = Ok p' /\ p_position p' = pt (V3 1 6 3).
Proof.
  set (p := new_particle (A := XRa) (G := Minstd XRa) (pt (V3 1 2 3)) (pt (V3 0 1 0))
              (Group 1) neutron 1 None).
  destruct (C16_streaming_succeeds _ _ SurfaceTracking p (Fin 4) eq_refl) as (p' & E & _).
  exists p, p'. split; [reflexivity|split; [reflexivity|split; [exact E|]]].
  eapply C16_streaming in E; [|reflexivity|reflexivity]. destruct E as [-> _].
  unfold along, vadd, vscale, pt; cbn. repeat f_equal; ring.
Qed.
