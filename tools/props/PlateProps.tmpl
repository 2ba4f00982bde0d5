(** Property C109: an isotropic source in an absorbing plate. *)
From Coq Require Import Bool List Reals NArith.
From Coquelicot Require Import Hierarchy RInt.
From Verif Require Import Model.Num Model.Outcome Model.Rng Model.Xml Model.Point Model.Types Model.Field
  Model.Particle Model.Multigroup Model.Material Model.World Model.Perturbation Model.Transport Spec.Vec
  Spec.MultigroupSpec Spec.TransportSpec Spec.ChanceSpec Spec.CollisionSpec Spec.AbsorbSpec Spec.DepthSpec
  Spec.BallSpec Spec.PlateSpec Proofs.SampleProblem Proofs.PlateLaw.
Import ListNotations.
Local Open Scope R_scope.

(** C109: a neutron of an isotropic source in an absorbing plate is counted at a face at distance
    [h] with the chance 1/2 times the integral of exp(-S h / mu) over the cosines from 0 to 1. *)
@@C109_plate

(** C109: it is captured in the plate with the rest of the probability, so no other end and no
    second count have any. *)
@@C109_captured

(** A plate of thickness two with the source in its middle. *)
Example C109_case :
  mixture slab_ext [1]%N (fun _ => slab_node) slab_material /\ absorbs slab_ext (fun _ => slab_node) slab_material 1
  /\ In 1%N [1]%N /\ c_material plate_cell = Some slab_material /\ m_density slab_material = Fin 1
  /\ plate plate_world plate_cell face back (-1) 1 /\ -1 < vx (V3 0 0 0) < 1
  /\ 1 * mixed_sum (fun _ => slab_node) slab_material (fun n => sigma slab_ext n Rcapture 1) = 1.
Proof. exact C109_example. Qed.
