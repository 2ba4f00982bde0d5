(** Surfaces, cells and directions: properties C06-C16. *)
From Coq Require Import String List Reals ZArith NArith Lra Lia Permutation SpecFloat.
From Verif Require Import Model.Num Model.Outcome Model.Rng Model.Xml Model.Std Model.Point
  Model.Surface Model.Types Model.Field Model.Particle Model.World Model.Perturbation
  Spec.Vec Spec.GeometrySpec Spec.CellSpec Spec.RngSpec Spec.DirectionSpec Spec.TextExt
  Proofs.RealLib Proofs.GeometryProofs Proofs.CellProofs Proofs.DirectionProofs
  Proofs.StreamProofs Proofs.RngProofs.
Import ListNotations.
Local Open Scope R_scope.

(** C06 *)
@@C06_sphere_distance

Example C06_case :
  let c := V3 1 2 3 in let o := V3 (-4) 2 3 in let u := V3 1 0 0 in
  0 < 2 /\ unit u /\ some_crossing (on_sphere c 2) (fun p => crosses_sphere c p u) o u.
Proof.
  cbv zeta. split; [lra|split].
  - apply unit_dot; unfold dot; cbn; ring.
  - exists 3. split; [lra|split].
    + unfold on_sphere, dist, norm, dot, along, vsub, vadd, vscale; cbn.
      replace (_ + _) with (2 * 2) by ring. apply sqrt_square; lra.
    + unfold crosses_sphere, dot, along, vsub, vadd, vscale; cbn. lra.
Qed.

(** C07 *)
@@C07_planex_distance

Example C07_case :
  some_crossing (on_planex 2) (fun _ => vx (V3 (-1) 0 0) <> 0) (V3 5 1 1) (V3 (-1) 0 0).
Proof. exists 3. unfold on_planex; cbn. repeat split; lra. Qed.

(** C08 *)
@@C08_cylinderx_distance

Example C08_case :
  let o := V3 7 (-4) 0 in let u := V3 0 1 0 in
  0 < 3 /\ unit u /\ some_crossing (on_cylinderx 3) (fun p => crosses_cylinderx p u) o u.
Proof.
  cbv zeta. split; [lra|split].
  - apply unit_dot; unfold dot; cbn; ring.
  - exists 1. split; [lra|split].
    + unfold on_cylinderx, axis_distance, along, vadd, vscale; cbn.
      replace (_ + _) with (3 * 3) by ring. apply sqrt_square; lra.
    + unfold crosses_cylinderx, along, vadd, vscale; cbn. lra.
Qed.

(** C09 *)
@@C09_side_changes_at_distance

Example C09_case :
  let s := Sphere (pt (V3 0 0 0)) (Fin 2) in
  sphere_or_plane s /\ unit (V3 1 0 0) /\ ~ on_surface s (V3 (-3) 0 0)
  /\ exists d, distance s (pt (V3 (-3) 0 0)) (pt (V3 1 0 0)) = Fin d.
Proof.
  cbv zeta. assert (Hu : unit (V3 1 0 0)) by (apply unit_dot; unfold dot; cbn; ring).
  split; [constructor; lra|split; [auto|split]].
  - intros (cv & E & On). apply pt_inj in E; subst cv.
    unfold on_sphere, dist, norm, dot, vsub in On; cbn in On.
    replace (_ + _) with (3 * 3) in On by ring. rewrite sqrt_square in On; lra.
  - destruct (C06_sphere_distance (V3 0 0 0) 2 (V3 (-3) 0 0) (V3 1 0 0)) as [H _]; auto; [lra|].
    destruct H as (d & E & _); [|exists d; exact E].
    exists 1. split; [lra|split].
    + unfold on_sphere, dist, norm, dot, along, vsub, vadd, vscale; cbn.
      replace (_ + _) with (2 * 2) by ring. apply sqrt_square; lra.
    + unfold crosses_sphere, dot, along, vsub, vadd, vscale; cbn. lra.
Qed.

(** C10: false as the code is written. *)
@@C10_cylinder_containment_refuted

@@C10_cylinder_crossing_refuted

@@C10_cylinder_containment_partial

Example C10_case : 0 < 1 /\ axis_distance (V3 9 (1 / 2) 0) < 1.
Proof.
  split; [lra|]. unfold axis_distance; cbn.
  replace (_ + _) with (1 / 2 * (1 / 2)) by field. rewrite sqrt_square; lra.
Qed.

(** The shell between two spheres on one side of a plane, used below. *)
Definition shell : cell XRa :=
  mkCell 0 "shell"
    [(mkSurf 0 (mkSurface "inner" (Sphere (pt (V3 0 0 0)) (Fin 1))), false);
     (mkSurf 1 (mkSurface "outer" (Sphere (pt (V3 0 0 0)) (Fin 3))), true);
     (mkSurf 2 (mkSurface "wall" (PlaneX (A := XRa) (Fin 0))), false)]
    None (constant_field (A := XRa) (Fin 300)).

Lemma shell_shapes s : surface_of shell s -> sphere_or_plane (s_shape (su_surface s)).
Proof.
  intros [b H]; cbn in H. repeat destruct H as [H|H]; try contradiction; injection H as <- <-;
    cbn; constructor; lra.
Qed.

(** C11 *)
@@C11_nearest_surface

@@C11_nearest_surface_binary64

Example C11_case :
  (forall s, surface_of shell s -> real_shape (s_shape (su_surface s)))
  /\ unit (V3 1 0 0) /\ c_senses shell <> [].
Proof.
  split; [|split].
  - intros s H. destruct (shell_shapes s H); constructor; auto.
  - apply unit_dot; unfold dot; cbn; ring.
  - discriminate.
Qed.

Example C11_binary64_case :
  forall L, let z := nofZ (F64 L) in
  let c := mkCell 0 "slab"
    [(mkSurf 0 (mkSurface "left" (PlaneX (A := F64 L) (z 1%Z))), false);
     (mkSurf 1 (mkSurface "right" (PlaneX (A := F64 L) (z 4%Z))), true)]
    None (constant_field (A := F64 L) (z 300%Z)) in
  (forall s, surface_of c s ->
     surf_distance s (mkPoint (z 2%Z) (z 0%Z) (z 0%Z)) (mkPoint (z 1%Z) (z 0%Z) (z 0%Z)) <> S754_nan)
  /\ c_senses c <> [].
Proof.
  intros L; cbv zeta. split; [|discriminate].
  intros s [b H]; cbn in H. repeat destruct H as [H|H]; try contradiction; injection H as <- <-;
    vm_compute; discriminate.
Qed.

(** C12 *)
@@C12_flight_stays_in_cell

Example C12_case :
  let o := V3 2 0 0 in let u := V3 1 0 0 in
  (forall s, surface_of shell s -> sphere_or_plane (s_shape (su_surface s))) /\ unit u
  /\ inside shell (pt o)
  /\ (forall s, surface_of shell s -> ~ on_surface (s_shape (su_surface s)) o)
  /\ exists s d, nearest_surface shell (pt o) (pt u) = Ok (s, d) /\ 0 <= 0 /\ before 0 d.
Proof.
  cbv zeta. assert (Hu : unit (V3 1 0 0)) by (apply unit_dot; unfold dot; cbn; ring).
  split; [exact shell_shapes|split; [auto|split; [|split]]].
  - intros s b H; cbn in H. repeat destruct H as [H|H]; try contradiction; injection H as <- <-;
      cbn [su_surface s_shape]; rewrite ?sphere_contains, ?planex_contains;
      unfold dot, vsub; cbn; (apply Rltb_true || apply Rltb_false); lra.
  - intros s [b H]; cbn in H. repeat destruct H as [H|H]; try contradiction; injection H as <- <-;
      cbn [su_surface s_shape on_surface].
    1,2: intros (cv & E & On); apply pt_inj in E; subst cv;
      unfold on_sphere, dist, norm, dot, vsub in On; cbn in On;
      replace (_ + _) with (2 * 2) in On by ring; rewrite sqrt_square in On; lra.
    unfold on_planex; cbn; lra.
  - destruct (C11_nearest_surface shell (V3 2 0 0) (V3 1 0 0)) as [H _]; auto.
    { intros s H; destruct (shell_shapes s H); constructor; auto. }
    destruct H as (s & d & E & I & D & _); [discriminate|].
    exists s, d. split; [exact E|split; [lra|]]. subst d. unfold surf_distance.
    destruct (real_shape_distance (s_shape (su_surface s)) (V3 2 0 0) (V3 1 0 0))
      as [F|(r & F & P)]; auto.
    + destruct (shell_shapes s I); constructor; auto.
    + rewrite F; exact Logic.I.
    + rewrite F; exact P.
Qed.

(** C13 *)
@@C13_point_location

@@C13_point_location_order

Example C13_case :
  let other := mkCell 1 "rest" [(mkSurf 2 (mkSurface "wall" (PlaneX (A := XRa) (Fin 0))), true)]
                 None (constant_field (A := XRa) (Fin 300)) in
  let w := mkWorld [] [] [] (constant_field (A := XRa) (Fin 300)) [shell; other] in
  In other (w_cells w) /\ inside other (pt (V3 (-1) 0 0))
  /\ forall c', In c' (w_cells w) -> inside c' (pt (V3 (-1) 0 0)) -> c' = other.
Proof.
  cbv zeta. split; [cbn; auto|split].
  - intros s b H; cbn in H. destruct H as [H|[]]; injection H as <- <-.
    cbn [su_surface s_shape]. rewrite planex_contains; cbn. apply Rltb_true; lra.
  - intros c' [<-|[<-|[]]] I; auto. exfalso.
    specialize (I (mkSurf 2 (mkSurface "wall" (PlaneX (A := XRa) (Fin 0)))) false).
    cbn [su_surface s_shape] in I. rewrite planex_contains in I; cbn in I.
    rewrite Rltb_true in I by lra. discriminate I. auto.
Qed.

(** C14 *)
@@C14_directions_are_unit

Example C14_case : V3 0 (-2) 1 <> zero_vec /\ valid_rng (Minstd XRa).
Proof. split; [intros [= H _]; lra|exact minstd_valid]. Qed.

(** C70 *)
@@C70_isotropic_direction

Example C70_case : valid_rng (Minstd XRa) /\ valid_rng half_rng.
Proof. split; [exact minstd_valid|exact (open_valid _ half_open)]. Qed.

(** C15 *)
@@C15_rotation_cosine

Example C15_case : unit (V3 1 0 0) /\ unit (V3 0 1 0) /\ -1 <= -1 / 3 <= 1.
Proof. repeat split; try lra; apply unit_dot; unfold dot; cbn; ring. Qed.

(** C16 *)
@@C16_streaming

@@C16_streaming_succeeds

Example C16_case :
  exists p p' : particle XRa (Minstd XRa),
    p_position p = pt (V3 1 2 3) /\ p_direction p = pt (V3 0 1 0)
    /\ stream SurfaceTracking p (Fin 4) = Ok p' /\ p_position p' = pt (V3 1 6 3).
Proof.
  set (p := new_particle (A := XRa) (G := Minstd XRa) (pt (V3 1 2 3)) (pt (V3 0 1 0))
              (Group 1) neutron 1 None).
  destruct (C16_streaming_succeeds _ _ SurfaceTracking p (Fin 4) eq_refl) as (p' & E & _).
  exists p, p'. split; [reflexivity|split; [reflexivity|split; [exact E|]]].
  eapply C16_streaming in E; [|reflexivity|reflexivity]. destruct E as [-> _].
  unfold along, vadd, vscale, pt; cbn. repeat f_equal; ring.
Qed.
