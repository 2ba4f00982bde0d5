(** Property C102: collisions come to what the data say, as often as the data say. *)
From Coq Require Import Bool List Reals NArith.
From Verif Require Import Model.Num Model.Outcome Model.Rng Model.Xml Model.Types Model.Particle Model.Material
  Model.Perturbation Model.Transport Spec.MultigroupSpec Spec.TransportSpec Spec.ChanceSpec Spec.CollisionSpec
  Proofs.SampleProblem Proofs.CollisionLaw.
Import ListNotations.
Local Open Scope R_scope.

(** C102: the chance that a collision in a mixture ends in capture, in scattering into a given
    group with a cosine to the x axis below a given number, or in fission with a given number
    of neutrons. *)
@@C102_collision

(** The numbers of neutrons have the average yield for their mean. *)
@@C102_yield

(** A quarter of fuel in a moderator. *)
Example C102_case :
  mixture slab_ext [1; 2]%N blend_doc blend /\ group_neutron [1; 2]%N blend_neutron
  /\ p_energy blend_neutron = Group 1 /\ p_cell blend_neutron = Some blend_cell
  /\ c_material blend_cell = Some blend
  /\ (forall nu a, In (nu, a) (m_afracs blend) -> fission_node (blend_doc nu) <> None ->
        0 < column_sum slab_ext (blend_doc nu) (chi_node (blend_doc nu)) 1)
  /\ mixed_sum blend_doc blend (any_reaction slab_ext 1) = 3
  /\ mixed_sum blend_doc blend (fun n => sigma slab_ext n Rcapture 1) = 1 / 4
  /\ mixed_sum blend_doc blend (transfer slab_ext 1 2) = 1
  /\ mixed_sum blend_doc blend (multiplying slab_ext 1 2) = 1 / 8.
Proof. exact C102_example. Qed.
