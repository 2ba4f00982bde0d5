(** Property C109: an isotropic source in an absorbing plate. *)
From Coq Require Import Bool List Reals NArith.
From Coquelicot Require Import Hierarchy RInt.
From Verif Require Import Model.Num Model.Outcome Model.Rng Model.Xml Model.Point Model.Types Model.Field
  Model.Particle Model.Multigroup Model.Material Model.World Model.Perturbation Model.Transport Spec.Vec
  Spec.MultigroupSpec Spec.TransportSpec Spec.ChanceSpec Spec.CollisionSpec Spec.AbsorbSpec Spec.DepthSpec
  Spec.BallSpec Spec.PlateSpec Proofs.SampleProblem Proofs.PlateLaw.
Import ListNotations.
Local Open Scope R_scope.

(** C109: a neutron of an isotropic source in an absorbing plate is counted at a face at distance
    [h] with the chance 1/2 times the integral of exp(-S h / mu) over the cosines from 0 to 1. *)
Theorem C109_plate :
  forall (X : Ext XRa) (Gs : list N) (doc : nuclide XRa -> node) (m : material XRa) (w : world XRa) (c : cell XRa)
    (before after : surf XRa) (g : N) (o : vec) (d a b : R) (t : tracking) (fuel more : nat),
  mixture X Gs doc m -> absorbs X doc m g -> In g Gs ->
  c_material c = Some m -> m_density m = Fin d -> plate w c before after a b -> a < vx o < b ->
  let S := d * mixed_sum doc m (fun n => sigma X n Rcapture g) in
  (exists x, is_RInt (V := R_NormedModule) (fun mu => exp (- (S * (b - vx o) / mu))) 0 1 x
    /\ chance (3 + more) (fun l => tallied t (1 + fuel) w (su_id after) 1 (isotropic_neutron o g l)) (x / 2))
  /\ (exists x, is_RInt (V := R_NormedModule) (fun mu => exp (- (S * (vx o - a) / mu))) 0 1 x
    /\ chance (3 + more) (fun l => tallied t (1 + fuel) w (su_id before) 1 (isotropic_neutron o g l)) (x / 2)).
Proof. exact C109_plate_proof. Qed.
Print Assumptions C109_plate.

(** C109: it is captured in the plate with the rest of the probability, so no other end and no
    second count have any. *)
Theorem C109_captured :
  forall (X : Ext XRa) (Gs : list N) (doc : nuclide XRa -> node) (m : material XRa) (w : world XRa) (c : cell XRa)
    (before after : surf XRa) (g : N) (o : vec) (d a b : R) (t : tracking) (fuel more : nat)
    (E : Type) (score : E -> particle XRa Given -> outcome E) (e : E),
  mixture X Gs doc m -> absorbs X doc m g -> In g Gs ->
  c_material c = Some m -> m_density m = Fin d -> plate w c before after a b -> a < vx o < b ->
  (forall e' q, exists e'', score e' q = Ok e'') ->
  let S := d * mixed_sum doc m (fun n => sigma X n Rcapture g) in
  exists x y, is_RInt (V := R_NormedModule) (fun mu => exp (- (S * (b - vx o) / mu))) 0 1 x
    /\ is_RInt (V := R_NormedModule) (fun mu => exp (- (S * (vx o - a) / mu))) 0 1 y
    /\ chance (3 + more)
         (fun l => comes_to (last_state (transport (A := XRa) score t (1 + fuel) w e (isotropic_neutron o g l)))
                     (captured_in (c_id c)))
         (1 - (x / 2 + y / 2)).
Proof. exact C109_captured_proof. Qed.
Print Assumptions C109_captured.

(** A plate of thickness two with the source in its middle. *)
Example C109_case :
  mixture slab_ext [1]%N (fun _ => slab_node) slab_material /\ absorbs slab_ext (fun _ => slab_node) slab_material 1
  /\ In 1%N [1]%N /\ c_material plate_cell = Some slab_material /\ m_density slab_material = Fin 1
  /\ plate plate_world plate_cell face back (-1) 1 /\ -1 < vx (V3 0 0 0) < 1
  /\ 1 * mixed_sum (fun _ => slab_node) slab_material (fun n => sigma slab_ext n Rcapture 1) = 1.
Proof. exact C109_example. Qed.
