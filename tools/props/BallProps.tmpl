(** Property C108: an isotropic source in the middle of an absorbing ball. *)
From Coq Require Import Bool List Reals NArith.
From Verif Require Import Model.Num Model.Outcome Model.Rng Model.Xml Model.Point Model.Types Model.Field
  Model.Particle Model.Multigroup Model.Material Model.World Model.Perturbation Model.Transport Spec.Vec
  Spec.MultigroupSpec Spec.TransportSpec Spec.ChanceSpec Spec.CollisionSpec Spec.AbsorbSpec Spec.BallSpec
  Proofs.SampleProblem Proofs.BallLaw.
Import ListNotations.
Local Open Scope R_scope.

(** C108: a neutron of an isotropic source in the middle of an absorbing ball of radius [r]
    leaks with the chance exp(-S r). *)
@@C108_ball

(** C108: of the particles that are scored in its history just one crosses the surface of the
    ball with that chance, and none with the rest: what a current estimator there counts. *)
@@C108_tally

(** The problem of test/point_source_leakage.xml, of which the test expects exp(-1). *)
Example C108_case :
  mixture slab_ext [1]%N (fun _ => slab_node) slab_material /\ absorbs slab_ext (fun _ => slab_node) slab_material 1
  /\ In 1%N [1]%N /\ c_material ball_cell = Some slab_material /\ m_density slab_material = Fin 1
  /\ ball ball_world ball_cell (V3 0 0 0) 1
  /\ c_senses ball_cell = [(sphere, true)]
  /\ 1 * mixed_sum (fun _ => slab_node) slab_material (fun n => sigma slab_ext n Rcapture 1) * 1 = 1.
Proof. exact C108_example. Qed.
