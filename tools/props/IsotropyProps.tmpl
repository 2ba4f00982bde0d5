(** Property C104: how directions are spread over the sphere. *)
From Coq Require Import Bool List Reals.
From Verif Require Import Model.Num Model.Rng Model.Point Model.Types Model.Particle Model.Driver Spec.Vec Spec.ChanceSpec
  Spec.IsotropySpec Proofs.CollisionLaw Proofs.IsotropyLaw.
Import ListNotations.
Local Open Scope R_scope.

(** C104: a direction of an isotropic source, or after a collision with multigroup data,
    falls on a patch of the sphere with the chance of its share of the area. *)
@@C104_isotropic
(** A direction of a source of isotropic flux falls on a patch about the reference with a
    chance weighted by the cosine. *)
@@C104_flux
(** After scattering with a given cosine, every azimuth about the old direction is alike. *)
@@C104_scattered
(** The cosine and azimuth of a direction make up the direction, so that patches do bound
    directions. *)
@@C104_patches

(** The upper half of the forward hemisphere, a quarter of the sphere; and the directions of
    isotropic flux within sixty degrees of the reference. *)
Example C104_case :
  frame (V3 1 0 0) (V3 0 1 0) (V3 0 0 1)
  /\ unit (V3 1 0 0) /\ p_direction blend_neutron = pt (V3 1 0 0)
  /\ patch (V3 1 0 0) (V3 0 1 0) (V3 0 0 1) 0 1 0 PI (pt (V3 (3 / 5) 0 (4 / 5))) = true
  /\ patch (V3 1 0 0) (V3 0 1 0) (V3 0 0 1) 0 1 0 PI (pt (V3 (-3 / 5) 0 (4 / 5))) = false
  /\ patch (V3 1 0 0) (V3 0 1 0) (V3 0 0 1) 0 1 0 PI (pt (V3 (3 / 5) 0 (-4 / 5))) = false
  /\ (1 - 0) * (PI - 0) / (4 * PI) = 1 / 4
  /\ (1 * 1 - 1 / 2 * (1 / 2)) * (2 * PI - 0) / (2 * PI) = 3 / 4.
Proof. exact C104_example. Qed.
