(** Cells as regions. *)
From Coq Require Import List Reals.
From Verif Require Import Model.Num Model.Point Model.Surface Model.Types Spec.Vec
  Spec.GeometrySpec.
Import ListNotations.
Local Open Scope R_scope.

(** A point is inside a cell when it is on the written side of every surface. *)
Definition inside {A : Arith} (c : cell A) (p : point A) : Prop :=
  forall s within, In (s, within) (c_senses c) -> contains (s_shape (su_surface s)) p = within.

(** The surfaces of a cell. *)
Definition surface_of {A : Arith} (c : cell A) (s : surf A) : Prop :=
  exists within, In (s, within) (c_senses c).
Definition surf_distance {A : Arith} (s : surf A) (p d : point A) : num A :=
  distance (s_shape (su_surface s)) p d.

(** Surfaces with real data. *)
Inductive real_shape : shape XRa -> Prop :=
  | real_sphere c r : 0 < r -> real_shape (Sphere (pt c) (Fin r))
  | real_planex x : real_shape (PlaneX (A := XRa) (Fin x))
  | real_cylinderx r : 0 < r -> real_shape (CylinderX (A := XRa) (Fin r)).

(** [t] is below the distance [d], which may be infinite. *)
Definition before (t : R) (d : xr) : Prop :=
  match d with Fin r => t < r | PInf => True | _ => False end.
