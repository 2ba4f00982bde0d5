(** Property C112: how many of some histories are counted. *)
From Coq Require Import Bool List Reals NArith.
From Verif Require Import Model.Num Model.Outcome Model.Rng Model.Xml Model.Point Model.Types Model.Field
  Model.Particle Model.Multigroup Model.Material Model.World Model.Perturbation Model.Transport Spec.Vec
  Spec.MultigroupSpec Spec.TransportSpec Spec.ChanceSpec Spec.CollisionSpec Spec.AbsorbSpec Spec.BallSpec
  Spec.HitsSpec Proofs.SampleProblem Proofs.BallLaw Proofs.HitsLaw.
Import ListNotations.
Local Open Scope R_scope.

(** C112: of [n] histories with random numbers of their own, [j] have a property with the chance
    of the binomial distribution. *)
@@C112_independent

(** C112: so of [n] neutrons from the middle of an absorbing ball [j] are counted at its surface
    with the chance (n choose j) p^j (1-p)^(n-j), where p = exp(-S r). *)
@@C112_ball

(** Of three neutrons in the problem of test/point_source_leakage.xml just two are counted. *)
Example C112_case : forall t,
  chance 9
    (fun l => Nat.eqb (hits 3 (fun l' => tallied t 1 ball_world 0 1 (isotropic_neutron (V3 0 0 0) 1 l')) 3 l) 2)
    (3 * exp (-1) ^ 2 * (1 - exp (-1))).
Proof. exact C112_example. Qed.
