(** Property C105: how far a particle gets, and what becomes of it there. *)
From Coq Require Import Bool List Reals NArith.
From Verif Require Import Model.Num Model.Outcome Model.Rng Model.Xml Model.Point Model.Types Model.Particle
  Model.Material Model.World Model.Perturbation Model.Transport Spec.Vec Spec.MultigroupSpec Spec.TransportSpec
  Spec.ChanceSpec Spec.CollisionSpec Spec.BirthSpec Spec.StepSpec Proofs.SampleProblem Proofs.CollisionLaw
  Proofs.BirthLaw Proofs.StepLaw.
Import ListNotations.
Local Open Scope R_scope.

(** C105: under either tracking method, a step of a neutron in a mixture passes the surface ahead
    with the chance that no collision comes before it, and otherwise captures, scatters or splits
    a nucleus within a distance with the chance that the data say. *)
@@C105_step

(** Fuel in a moderator, ten away from the vacuum. *)
Example C105_case :
  mixture slab_ext [1; 2]%N blend_doc blend /\ group_neutron [1; 2]%N blend_neutron
  /\ p_energy blend_neutron = Group 1 /\ p_cell blend_neutron = Some blend_cell
  /\ c_material blend_cell = Some blend /\ m_density blend = Fin 1
  /\ p_position blend_neutron = pt (V3 0 0 0) /\ p_direction blend_neutron = pt (V3 1 0 0)
  /\ heads blend_world blend_cell (V3 0 0 0) (V3 1 0 0) 10
  /\ (forall nu a, In (nu, a) (m_afracs blend) -> fission_node (blend_doc nu) <> None ->
        0 < column_sum slab_ext (blend_doc nu) (chi_node (blend_doc nu)) 1)
  /\ mixed_sum blend_doc blend (any_reaction slab_ext 1) = 3
  /\ mixed_sum blend_doc blend (fun n => sigma slab_ext n Rcapture 1) = 1 / 4
  /\ mixed_sum blend_doc blend (transfer slab_ext 1 2) = 1.
Proof. exact C105_example. Qed.
