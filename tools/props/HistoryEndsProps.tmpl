(** Property C100: the transport of a particle ends. *)
From Coq Require Import List Reals NArith.
From Verif Require Import Model.Num Model.Outcome Model.Rng Model.Xml Model.Types Model.Particle Model.Material
  Model.Perturbation Model.Transport Model.Driver Spec.Vec Spec.MultigroupSpec Spec.TransportSpec Spec.ChanceSpec
  Spec.EndingSpec Proofs.SampleProblem Proofs.HistoryEnds
  Proofs.LeakEnds.
Import ListNotations.
Local Open Scope R_scope.

(** C100: in a world of multigroup data where every collision absorbs with probability [b] at
    least, the chance that a neutron has not been transported to its end in [F] steps falls
    as a power of [1 - b]: between two collisions it crosses each surface twice at most. *)
@@C100_transport_ends

(** A half space that scatters as often as it captures, void beyond. *)
Example C100_case :
  absorbing_world slab_ext [1]%N (1 / 2) mixed_world /\ plain_geometry mixed_world
  /\ group_neutron [1]%N mixed_neutron /\ first_cell mixed_world (p_position mixed_neutron) mixed
  /\ c_material mixed = Some mixed_material /\ length (sides mixed_world) = 2%nat.
Proof. exact C100_example. Qed.

(** Nothing need absorb: where every cell that is not void lies within one of its own spheres,
    the neutron has leaked at the latest, with a chance that tends to one in the same way and
    a base that depends on the world only. *)
@@C100_leaks

(** And so a whole history ends, where no neutron is born by fission. *)
@@C100_history

(** A ball that only scatters, void beyond. *)
Example C100_leaks_case :
  multigroup_world slab_ext [1]%N ball_world /\ plain_geometry ball_world /\ bounded_cells ball_world
  /\ group_neutron [1]%N mixed_neutron /\ first_cell ball_world (p_position mixed_neutron) ball
  /\ c_material ball = Some bouncy_material
  /\ sigma slab_ext bouncy_node Rcapture 1 = 0 /\ non_multiplying slab_ext [1]%N ball_world.
Proof. exact C100_leaks_example. Qed.
