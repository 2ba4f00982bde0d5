(** Property C106: the walk of a neutron in a medium that only absorbs. *)
From Coq Require Import Bool List Reals NArith.
From Verif Require Import Model.Num Model.Outcome Model.Rng Model.Xml Model.Point Model.Types Model.Particle
  Model.Multigroup Model.Material Model.World Model.Perturbation Model.Transport Spec.Vec Spec.MultigroupSpec
  Spec.TransportSpec Spec.ChanceSpec Spec.CollisionSpec Spec.StepSpec Spec.AbsorbSpec Proofs.SampleProblem
  Proofs.AbsorbLaw.
Import ListNotations.
Local Open Scope R_scope.

(** C106: whatever is scored on the way, and under either tracking method, a neutron in a medium
    that only absorbs leaks into the void at distance [D] with chance exp(-S D), and is captured
    before [x] with chance 1 - exp(-S x). *)
@@C106_absorber

(** A slab of absorber, ten thick. *)
Example C106_case :
  mixture slab_ext [1]%N (fun _ => slab_node) slab_material /\ absorbs slab_ext (fun _ => slab_node) slab_material 1
  /\ group_neutron [1]%N slab_neutron /\ p_energy slab_neutron = Group 1 /\ is_alive slab_neutron = true
  /\ c_material slab = Some slab_material /\ m_density slab_material = Fin 1
  /\ p_position slab_neutron = pt (V3 0 0 0) /\ p_direction slab_neutron = pt (V3 1 0 0)
  /\ meets_void slab_world slab (V3 0 0 0) (V3 1 0 0) 10
  /\ mixed_sum (fun _ => slab_node) slab_material (fun n => sigma slab_ext n Rcapture 1) = 1.
Proof. exact C106_example. Qed.
