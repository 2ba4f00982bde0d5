(** Property C98: the exponential law of flights. *)
From Coq Require Import Bool List Reals.
From Coquelicot Require Import Hierarchy RInt Lim_seq Rbar.
From Verif Require Import Model.Num Model.Outcome Model.Rng Model.Types Model.Particle Model.World Model.Perturbation
  Model.Transport Spec.Vec Spec.ChanceSpec Spec.BoxSpec Spec.FlightLawSpec Proofs.CrossingProofs Proofs.ChanceLib
  Proofs.ChanceLaw Proofs.FlightLaw.
Import ListNotations.
Local Open Scope R_scope.

(** C98: with delta tracking and a total cross section that is constant along the flight, a
    particle reaches the surface ahead with the probability of the exponential law, after
    as many virtual collisions as it takes. *)
@@C98_delta_partial
(** With surface tracking it does so in one step. *)
@@C98_surface_partial
(** An event has one probability at most. *)
@@C98_unique
(** Chances are probabilities, and those of boxes in the unit cube are their volumes. *)
@@C98_probability
(** Through a slab whose total cross section changes on the way, delta tracking lets a
    particle pass with another probability, however many steps it is given. *)
@@C98_varying_refuted

(** A neutron half a centimetre from the left of a slab which is warmer to the right: the
    majorant is twice the total cross section. *)
Example C98_case :
  flight slab_world (slab_at (/ 2)) (V3 (/ 2) 0 0) (V3 (-1) 0 0) slab_cell warm_material
    (/ 2) 1 2 (slab_sigma (/ 2))
  /\ forall t, 0 <= t < / 2 -> slab_sigma (/ 2) t = 1.
Proof. exact C98_example. Qed.
