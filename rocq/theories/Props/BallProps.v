(** Property C108: an isotropic source in the middle of an absorbing ball. *)
From Coq Require Import Bool List Reals NArith.
From Verif Require Import Model.Num Model.Outcome Model.Rng Model.Xml Model.Point Model.Types Model.Field
  Model.Particle Model.Multigroup Model.Material Model.World Model.Perturbation Model.Transport Spec.Vec
  Spec.MultigroupSpec Spec.TransportSpec Spec.ChanceSpec Spec.CollisionSpec Spec.AbsorbSpec Spec.BallSpec
  Proofs.SampleProblem Proofs.BallLaw.
Import ListNotations.
Local Open Scope R_scope.

(** C108: a neutron of an isotropic source in the middle of an absorbing ball of radius [r]
    leaks with the chance exp(-S r). *)
Theorem C108_ball :
  forall (X : Ext XRa) (Gs : list N) (doc : nuclide XRa -> node) (m : material XRa) (w : world XRa) (c : cell XRa)
    (g : N) (a : vec) (d r : R) (t : tracking) (fuel more : nat)
    (E : Type) (score : E -> particle XRa Given -> outcome E) (e : E),
  mixture X Gs doc m -> absorbs X doc m g -> In g Gs ->
  c_material c = Some m -> m_density m = Fin d -> ball w c a r ->
  (forall e' q, exists e'', score e' q = Ok e'') ->
  chance (3 + more)
    (fun l => comes_to (last_state (transport (A := XRa) score t (1 + fuel) w e (isotropic_neutron a g l)))
                (fun q => event_eqb (p_event q) leak))
    (exp (- (d * mixed_sum doc m (fun n => sigma X n Rcapture g) * r))).
Proof. exact C108_ball_proof. Qed.
Print Assumptions C108_ball.

(** C108: of the particles that are scored in its history just one crosses the surface of the
    ball with that chance, and none with the rest: what a current estimator there counts. *)
Theorem C108_tally :
  forall (X : Ext XRa) (Gs : list N) (doc : nuclide XRa -> node) (m : material XRa) (w : world XRa) (c : cell XRa)
    (g : N) (a : vec) (d r : R) (s : surf XRa) (t : tracking) (fuel more : nat),
  mixture X Gs doc m -> absorbs X doc m g -> In g Gs ->
  c_material c = Some m -> m_density m = Fin d -> ball w c a r -> c_senses c = [(s, true)] ->
  let leaked := exp (- (d * mixed_sum doc m (fun n => sigma X n Rcapture g) * r)) in
  chance (3 + more) (fun l => tallied t (1 + fuel) w (su_id s) 1 (isotropic_neutron a g l)) leaked
  /\ chance (3 + more) (fun l => tallied t (1 + fuel) w (su_id s) 0 (isotropic_neutron a g l)) (1 - leaked).
Proof. exact C108_tally_proof. Qed.
Print Assumptions C108_tally.

(** The problem of test/point_source_leakage.xml, of which the test expects exp(-1). *)
Example C108_case :
  mixture slab_ext [1]%N (fun _ => slab_node) slab_material /\ absorbs slab_ext (fun _ => slab_node) slab_material 1
  /\ In 1%N [1]%N /\ c_material ball_cell = Some slab_material /\ m_density slab_material = Fin 1
  /\ ball ball_world ball_cell (V3 0 0 0) 1
  /\ c_senses ball_cell = [(sphere, true)]
  /\ 1 * mixed_sum (fun _ => slab_node) slab_material (fun n => sigma slab_ext n Rcapture 1) * 1 = 1.
Proof. exact C108_example. Qed.
