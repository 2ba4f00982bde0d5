(** Property C98: the exponential law of flights. *)
From Coq Require Import Bool List Reals.
From Coquelicot Require Import Hierarchy RInt Lim_seq Rbar.
From Verif Require Import Model.Num Model.Outcome Model.Rng Model.Types Model.Particle Model.World Model.Perturbation
  Model.Transport Spec.Vec Spec.ChanceSpec Spec.BoxSpec Spec.FlightLawSpec Proofs.CrossingProofs Proofs.ChanceLib
  Proofs.ChanceLaw Proofs.FlightLaw.
Import ListNotations.
Local Open Scope R_scope.

(** C98: with delta tracking and a total cross section that is constant along the flight, a
    particle reaches the surface ahead with the probability of the exponential law, after
    as many virtual collisions as it takes. *)
Theorem C98_delta_partial :
  forall (fuel : nat) (w : world XRa) (p : particle XRa Given) (o v : vec) (c : cell XRa)
    (m : material XRa) (D d M S : R) (sigma : R -> R),
    flight w p o v c m D d M sigma -> (forall x, 0 <= x < D -> sigma x = S) ->
    exists P : nat -> R,
      (forall k, chance (2 * k) (fun l => passes CellDeltaTracking fuel w k (set_rng p l)) (P k))
      /\ is_lim_seq P (exp (- (d * S * D))).
Proof. exact C98_delta_partial_proof. Qed.
Print Assumptions C98_delta_partial.
(** With surface tracking it does so in one step. *)
Theorem C98_surface_partial :
  forall (fuel : nat) (w : world XRa) (p : particle XRa Given) (o v : vec) (c : cell XRa)
    (m : material XRa) (D d M S : R) (sigma : R -> R),
    flight w p o v c m D d M sigma -> sigma 0 = S -> 0 < S ->
    chance 1 (fun l => passes SurfaceTracking fuel w 1 (set_rng p l)) (exp (- (d * S * D))).
Proof. exact C98_surface_partial_proof. Qed.
Print Assumptions C98_surface_partial.
(** An event has one probability at most. *)
Theorem C98_unique :
  forall (n : nat) (E : list R -> bool) (x y : R), chance n E x -> chance n E y -> x = y.
Proof. exact C98_unique_proof. Qed.
Print Assumptions C98_unique.
(** Chances are probabilities, and those of boxes in the unit cube are their volumes. *)
Theorem C98_probability :
  (* between nought and one *)
  (forall n E x, chance n E x -> 0 <= x <= 1)
  (* the contrary *)
  /\ (forall n E x, chance n E x -> chance n (fun l => negb (E l)) (1 - x))
  (* one or the other of two that exclude each other *)
  /\ (forall n E F x y, (forall l, E l && F l = false) -> chance n E x -> chance n F y ->
        chance n (fun l => E l || F l) (x + y))
  (* independent and uniform *)
  /\ (forall bs, List.Forall (fun b => 0 <= fst b /\ fst b <= snd b <= 1) bs ->
        chance (length bs) (in_box bs) (volume bs)).
Proof. exact C98_probability_proof. Qed.
Print Assumptions C98_probability.
(** Through a slab whose total cross section changes on the way, delta tracking lets a
    particle pass with another probability, however many steps it is given. *)
Theorem C98_varying_refuted :
  exists (w : world XRa) (p : particle XRa Given) (o v : vec) (c : cell XRa) (m : material XRa)
    (D d M I P : R) (sigma : R -> R),
    flight w p o v c m D d M sigma
    /\ is_RInt (V := R_NormedModule) sigma 0 D I
    /\ (forall fuel k, (0 < k)%nat ->
          chance (2 * k) (fun l => passes CellDeltaTracking fuel w k (set_rng p l)) P)
    /\ P <> exp (- (d * I)).
Proof. exact C98_varying_refuted_proof. Qed.
Print Assumptions C98_varying_refuted.

(** A neutron half a centimetre from the left of a slab which is warmer to the right: the
    majorant is twice the total cross section. *)
Example C98_case :
  flight slab_world (slab_at (/ 2)) (V3 (/ 2) 0 0) (V3 (-1) 0 0) slab_cell warm_material
    (/ 2) 1 2 (slab_sigma (/ 2))
  /\ forall t, 0 <= t < / 2 -> slab_sigma (/ 2) t = 1.
Proof. exact C98_example. Qed.
