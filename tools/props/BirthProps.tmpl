(** Property C103: the neutrons of fission come as the data say. *)
From Coq Require Import Bool List Reals NArith.
From Verif Require Import Model.Num Model.Outcome Model.Rng Model.Xml Model.Types Model.Particle Model.Material
  Model.Perturbation Model.Transport Spec.MultigroupSpec Spec.TransportSpec Spec.ChanceSpec Spec.CollisionSpec
  Spec.BirthSpec Proofs.SampleProblem Proofs.CollisionLaw Proofs.BirthLaw.
Import ListNotations.
Local Open Scope R_scope.

(** C103: the chance that a collision in a mixture is a fission and brings just the neutrons
    asked for: so many, each in its group and with its cosine to the x axis below its bound. *)
@@C103_births

(** Two neutrons, one in each group, from fuel in a moderator. *)
Example C103_case :
  mixture slab_ext [1; 2]%N blend_doc blend /\ group_neutron [1; 2]%N slow_neutron
  /\ p_energy slow_neutron = Group 2 /\ p_cell slow_neutron = Some blend_cell
  /\ c_material blend_cell = Some blend
  /\ (forall nu a, In (nu, a) (m_afracs blend) -> fission_node (blend_doc nu) <> None ->
        0 < column_sum slab_ext (blend_doc nu) (chi_node (blend_doc nu)) 2)
  /\ List.Forall (fun w => In (fst w) [1; 2]%N /\ -1 <= snd w <= 1) one_each
  /\ mixed_sum blend_doc blend (any_reaction slab_ext 2) = 15 / 4
  /\ mixed_sum blend_doc blend
       (fun n => multiplying slab_ext 2 (length one_each) n * all_emitted slab_ext 2 one_each n) = 1 / 16.
Proof. exact C103_example. Qed.
