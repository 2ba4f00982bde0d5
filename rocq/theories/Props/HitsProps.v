(** Property C112: how many of some histories are counted. *)
From Coq Require Import Bool List Reals NArith.
From Verif Require Import Model.Num Model.Outcome Model.Rng Model.Xml Model.Point Model.Types Model.Field
  Model.Particle Model.Multigroup Model.Material Model.World Model.Perturbation Model.Transport Spec.Vec
  Spec.MultigroupSpec Spec.TransportSpec Spec.ChanceSpec Spec.CollisionSpec Spec.AbsorbSpec Spec.BallSpec
  Spec.HitsSpec Proofs.SampleProblem Proofs.BallLaw Proofs.HitsLaw.
Import ListNotations.
Local Open Scope R_scope.

(** C112: of [n] histories with random numbers of their own, [j] have a property with the chance
    of the binomial distribution. *)
Theorem C112_independent :
  forall (k : nat) (E : list R -> bool) (x : R), chance k E x ->
  forall n j, chance (n * k) (fun l => Nat.eqb (hits k E n l) j) (binomial n j x).
Proof. exact C112_independent_proof. Qed.
Print Assumptions C112_independent.

(** C112: so of [n] neutrons from the middle of an absorbing ball [j] are counted at its surface
    with the chance (n choose j) p^j (1-p)^(n-j), where p = exp(-S r). *)
Theorem C112_ball :
  forall (X : Ext XRa) (Gs : list N) (doc : nuclide XRa -> node) (m : material XRa) (w : world XRa) (c : cell XRa)
    (g : N) (a : vec) (d r : R) (s : surf XRa) (t : tracking) (fuel : nat),
  mixture X Gs doc m -> absorbs X doc m g -> In g Gs ->
  c_material c = Some m -> m_density m = Fin d -> ball w c a r -> c_senses c = [(s, true)] ->
  forall n j,
  chance (n * 3)
    (fun l => Nat.eqb (hits 3 (fun l' => tallied t (1 + fuel) w (su_id s) 1 (isotropic_neutron a g l')) n l) j)
    (binomial n j (exp (- (d * mixed_sum doc m (fun n => sigma X n Rcapture g) * r)))).
Proof. exact C112_ball_proof. Qed.
Print Assumptions C112_ball.

(** Of three neutrons in the problem of test/point_source_leakage.xml just two are counted. *)
Example C112_case : forall t,
  chance 9
    (fun l => Nat.eqb (hits 3 (fun l' => tallied t 1 ball_world 0 1 (isotropic_neutron (V3 0 0 0) 1 l')) 3 l) 2)
    (3 * exp (-1) ^ 2 * (1 - exp (-1))).
Proof. exact C112_example. Qed.
