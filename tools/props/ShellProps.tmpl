(** Property C110: an isotropic source in the middle of absorbing shells. *)
From Coq Require Import Bool List Reals NArith.
From Verif Require Import Model.Num Model.Outcome Model.Rng Model.Xml Model.Point Model.Types Model.Field
  Model.Particle Model.Multigroup Model.Material Model.World Model.Perturbation Model.Transport Spec.Vec
  Spec.MultigroupSpec Spec.TransportSpec Spec.ChanceSpec Spec.CollisionSpec Spec.AbsorbSpec Spec.BallSpec
  Spec.ShellSpec Proofs.SampleProblem Proofs.BallLaw Proofs.ShellLaw.
Import ListNotations.
Local Open Scope R_scope.

(** C110: a neutron of an isotropic source in the middle of [n] absorbing shells leaks with the
    chance exp(-x) where [x] is the sum of their thicknesses in mean free paths; behind each
    surface that is crossed the nudge is flown without attenuation. *)
@@C110_shells

(** A ball of radius one in a shell of radius two, both of the same absorber. *)
Example C110_case :
  exists k, nudge (A := XRa) = Fin k /\ 0 < k < 1 /\ In 1%N [1]%N
    /\ find_cell shell_world (pt (V3 0 0 0)) = Ok ball_cell
    /\ shells slab_ext [1]%N (fun _ => slab_node) shell_world 1 (V3 0 0 0) k [] 0 ball_cell 2
         (1 * (1 - 0) + 1 * (2 - (1 + k))).
Proof. exact C110_example. Qed.
