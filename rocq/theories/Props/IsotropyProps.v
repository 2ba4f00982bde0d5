(** Property C104: how directions are spread over the sphere. *)
From Coq Require Import Bool List Reals.
From Verif Require Import Model.Num Model.Rng Model.Point Model.Types Model.Particle Model.Driver Spec.Vec Spec.ChanceSpec
  Spec.IsotropySpec Proofs.CollisionLaw Proofs.IsotropyLaw.
Import ListNotations.
Local Open Scope R_scope.

(** C104: a direction of an isotropic source, or after a collision with multigroup data,
    falls on a patch of the sphere with the chance of its share of the area. *)
Theorem C104_isotropic :
  forall (a b f t : R) (more : nat), -1 <= a -> a <= b -> b <= 1 -> 0 <= f -> f <= t -> t <= 2 * PI ->
  (* the isotropic source *)
  chance (2 + more)
    (fun l => patch (V3 1 0 0) (V3 0 1 0) (V3 0 0 1) a b f t
                (fst (sample_direction (A := XRa) (G := Given) DirIsotropic l)))
    ((b - a) * (t - f) / (4 * PI))
  (* scattering by multigroup data *)
  /\ forall p : particle XRa Given,
     chance (2 + more)
       (fun l => patch (V3 1 0 0) (V3 0 1 0) (V3 0 0 1) a b f t
                   (p_direction (set_direction_isotropic (set_rng p l))))
       ((b - a) * (t - f) / (4 * PI)).
Proof. exact C104_isotropic_proof. Qed.
Print Assumptions C104_isotropic.
(** A direction of a source of isotropic flux falls on a patch about the reference with a
    chance weighted by the cosine. *)
Theorem C104_flux :
  forall d : vec, unit d -> exists e1 e2, frame d e1 e2
  /\ forall (a b f t : R) (more : nat), 0 <= a -> a <= b -> b <= 1 -> 0 <= f -> f <= t -> t <= 2 * PI ->
     chance (2 + more)
       (fun l => patch d e1 e2 a b f t
                   (fst (sample_direction (A := XRa) (G := Given) (DirIsotropicFlux (pt d)) l)))
       ((b * b - a * a) * (t - f) / (2 * PI)).
Proof. exact C104_flux_proof. Qed.
Print Assumptions C104_flux.
(** After scattering with a given cosine, every azimuth about the old direction is alike. *)
Theorem C104_scattered :
  forall d : vec, unit d -> exists e1 e2, frame d e1 e2
  /\ forall (p : particle XRa Given) (mu : R) (e : energy XRa) (a b f t : R) (more : nat),
     p_direction p = pt d -> -1 < mu < 1 -> a <= mu < b -> 0 <= f -> f <= t -> t <= 2 * PI ->
     chance (1 + more)
       (fun l => patch d e1 e2 a b f t (p_direction (p_scatter (set_rng p l) (Fin mu) e)))
       ((t - f) / (2 * PI)).
Proof. exact C104_scattered_proof. Qed.
Print Assumptions C104_scattered.
(** The cosine and azimuth of a direction make up the direction, so that patches do bound
    directions. *)
Theorem C104_patches :
  forall (d e1 e2 : vec) (a b f t : R), frame d e1 e2 ->
  (* every direction off the pole has its cosine and azimuth *)
  (forall w, unit w -> -1 < dot w d < 1 ->
     let mu := dot w d in let phi := azimuth e1 e2 w in
     0 <= phi < 2 * PI
     /\ w = vadd (vscale mu d) (vscale (sqrt (1 - mu * mu)) (vadd (vscale (cos phi) e1) (vscale (sin phi) e2))))
  /\ (* and a patch holds those of its cosines and azimuths *)
  forall w, patch d e1 e2 a b f t (pt w) = true <-> a <= dot w d < b /\ f <= azimuth e1 e2 w < t.
Proof. exact C104_patches_proof. Qed.
Print Assumptions C104_patches.

(** The upper half of the forward hemisphere, a quarter of the sphere; and the directions of
    isotropic flux within sixty degrees of the reference. *)
Example C104_case :
  frame (V3 1 0 0) (V3 0 1 0) (V3 0 0 1)
  /\ unit (V3 1 0 0) /\ p_direction blend_neutron = pt (V3 1 0 0)
  /\ patch (V3 1 0 0) (V3 0 1 0) (V3 0 0 1) 0 1 0 PI (pt (V3 (3 / 5) 0 (4 / 5))) = true
  /\ patch (V3 1 0 0) (V3 0 1 0) (V3 0 0 1) 0 1 0 PI (pt (V3 (-3 / 5) 0 (4 / 5))) = false
  /\ patch (V3 1 0 0) (V3 0 1 0) (V3 0 0 1) 0 1 0 PI (pt (V3 (3 / 5) 0 (-4 / 5))) = false
  /\ (1 - 0) * (PI - 0) / (4 * PI) = 1 / 4
  /\ (1 * 1 - 1 / 2 * (1 / 2)) * (2 * PI - 0) / (2 * PI) = 3 / 4.
Proof. exact C104_example. Qed.
