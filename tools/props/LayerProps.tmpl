(** Property C107: the flight of a neutron through layers of absorbers. *)
From Coq Require Import Bool List Reals NArith.
From Verif Require Import Model.Num Model.Outcome Model.Rng Model.Xml Model.Point Model.Types Model.Field
  Model.Particle Model.Multigroup Model.Material Model.World Model.Perturbation Model.Transport Spec.Vec
  Spec.MultigroupSpec Spec.TransportSpec Spec.ChanceSpec Spec.CollisionSpec Spec.AbsorbSpec Spec.LayerSpec
  Proofs.SampleProblem Proofs.AbsorbLaw Proofs.LayerLaw.
Import ListNotations.
Local Open Scope R_scope.

(** C107: a neutron that has any number of cells of absorbers before it leaks with the chance
    exp(-x), where x is the way through all of them in mean free paths. *)
@@C107_layers

(** Two slabs of absorber, ten thick each. *)
Example C107_case :
  group_neutron [1]%N slab_neutron /\ p_energy slab_neutron = Group 1 /\ is_alive slab_neutron = true
  /\ p_position slab_neutron = pt (V3 0 0 0) /\ p_direction slab_neutron = pt (V3 1 0 0)
  /\ find_cell two_slabs (pt (V3 0 0 0)) = Ok slab
  /\ exists k, nudge (A := XRa) = Fin k /\ 0 < k < 1
     /\ layers slab_ext [1]%N (fun _ => slab_node) two_slabs 1 (V3 1 0 0) 2 (V3 0 0 0) slab (10 + (10 - k)).
Proof. exact C107_example. Qed.
