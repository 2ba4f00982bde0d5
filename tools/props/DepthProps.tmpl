(** Property C111: where in layers of absorbers a neutron is captured. *)
From Coq Require Import Bool List Reals NArith.
From Verif Require Import Model.Num Model.Outcome Model.Rng Model.Xml Model.Point Model.Types Model.Field
  Model.Particle Model.Multigroup Model.Material Model.World Model.Perturbation Model.Transport Spec.Vec
  Spec.SumSpec Spec.MultigroupSpec Spec.TransportSpec Spec.ChanceSpec Spec.CollisionSpec Spec.AbsorbSpec
  Spec.LayerSpec Spec.DepthSpec Proofs.SampleProblem Proofs.AbsorbLaw Proofs.LayerLaw Proofs.DepthLaw.
Import ListNotations.
Local Open Scope R_scope.

(** C111: of the cells before a neutron, different ones that only absorb, it is captured in
    [here] with the chance of passing those before, exp(-(sum of them)), times 1 - exp(-x). *)
@@C111_depth

(** Two slabs of absorber, ten thick each. *)
Example C111_case :
  group_neutron [1]%N slab_neutron /\ p_energy slab_neutron = Group 1 /\ is_alive slab_neutron = true
  /\ p_position slab_neutron = pt (V3 0 0 0) /\ p_direction slab_neutron = pt (V3 1 0 0)
  /\ find_cell two_slabs (pt (V3 0 0 0)) = Ok slab
  /\ exists k, nudge (A := XRa) = Fin k /\ 0 < k < 1
     /\ stack slab_ext [1]%N (fun _ => slab_node) two_slabs 1 (V3 1 0 0) (V3 0 0 0) slab
          ([(slab, 10)] ++ [(second_slab, 10 - k)])
     /\ NoDup (map (fun y => c_id (fst y)) ([(slab, 10)] ++ [(second_slab, 10 - k)])).
Proof. exact C111_example. Qed.
