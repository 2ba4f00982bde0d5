(** Surfaces as sets of points, rays meeting them, and inside/outside. *)
From Coq Require Import List Reals.
From Verif Require Import Model.Num Model.Point Model.Surface Model.Types Spec.Vec.
Import ListNotations.
Local Open Scope R_scope.

Definition on_sphere (c : vec) (r : R) (p : vec) : Prop := dist p c = r.
Definition on_planex (x : R) (p : vec) : Prop := vx p = x.

(** Distance of a point from the x axis. *)
Definition axis_distance (p : vec) : R := sqrt (vy p * vy p + vz p * vz p).
Definition on_cylinderx (r : R) (p : vec) : Prop := axis_distance p = r.

(** The flight along [u] is not tangent to the sphere (cylinder) at [p]. *)
Definition crosses_sphere (c p u : vec) : Prop := dot (vsub p c) u <> 0.
Definition crosses_cylinderx (p u : vec) : Prop := vy p * vy u + vz p * vz u <> 0.

(** [d] is the first forward crossing of the surface [on] by the ray: it is a
    positive parameter of a point on the surface met transversally, and no smaller
    positive parameter is on the surface. *)
Definition first_crossing (on : vec -> Prop) (transversal : vec -> Prop) (o u : vec) (d : R)
    : Prop :=
  0 < d /\ on (along o u d) /\ transversal (along o u d)
  /\ forall t, 0 < t < d -> ~ on (along o u t).
Definition some_crossing (on : vec -> Prop) (transversal : vec -> Prop) (o u : vec) : Prop :=
  exists t, 0 < t /\ on (along o u t) /\ transversal (along o u t).

(** The surfaces of the model with real data, as point sets, split into the two
    families: those whose two answers (distance, containment) agree for all data,
    and the cylinder. *)
Inductive sphere_or_plane : shape XRa -> Prop :=
  | sop_sphere c r : 0 < r -> sphere_or_plane (Sphere (pt c) (Fin r))
  | sop_planex x : sphere_or_plane (PlaneX (A := XRa) (Fin x)).

Definition on_surface (s : shape XRa) (p : vec) : Prop :=
  match s with
  | Sphere c (Fin r) => exists cv, c = pt cv /\ on_sphere cv r p
  | PlaneX (Fin x) => on_planex x p
  | CylinderX (Fin r) => on_cylinderx r p
  | _ => False
  end.
