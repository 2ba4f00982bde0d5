(** Property C106: the walk of a neutron in a medium that only absorbs. *)
From Coq Require Import Bool List Reals NArith.
From Verif Require Import Model.Num Model.Outcome Model.Rng Model.Xml Model.Point Model.Types Model.Particle
  Model.Multigroup Model.Material Model.World Model.Perturbation Model.Transport Spec.Vec Spec.MultigroupSpec
  Spec.TransportSpec Spec.ChanceSpec Spec.CollisionSpec Spec.StepSpec Spec.AbsorbSpec Proofs.SampleProblem
  Proofs.AbsorbLaw.
Import ListNotations.
Local Open Scope R_scope.

(** C106: whatever is scored on the way, and under either tracking method, a neutron in a medium
    that only absorbs leaks into the void at distance [D] with chance exp(-S D), and is captured
    before [x] with chance 1 - exp(-S x). *)
Theorem C106_absorber :
  forall (X : Ext XRa) (Gs : list N) (doc : nuclide XRa -> node) (m : material XRa) (c : cell XRa)
    (w : world XRa) (p : particle XRa Given) (g : N) (o v : vec) (D d : R) (t : tracking) (fuel more : nat)
    (E : Type) (score : E -> particle XRa Given -> outcome E) (e : E),
  mixture X Gs doc m -> absorbs X doc m g -> group_neutron Gs p -> p_energy p = Group g -> is_alive p = true ->
  c_material c = Some m -> m_density m = Fin d ->
  p_position p = pt o -> p_direction p = pt v -> meets_void w c o v D ->
  (forall e' q, exists e'', score e' q = Ok e'') ->
  let S := d * mixed_sum doc m (fun n => sigma X n Rcapture g) in
  let ended l := last_state (transport (A := XRa) score t (1 + fuel) w e (set_rng p l)) in
  (* it leaks *)
  chance (2 + more) (fun l => comes_to (ended l) (fun q => event_eqb (p_event q) leak)) (exp (- (S * D)))
  (* it is captured before [x] *)
  /\ (forall x, 0 <= x <= D ->
       chance (4 + more) (fun l => comes_to (ended l) (fun q => within o v x q && event_eqb (p_event q) capture))
         (1 - exp (- (S * x)))).
Proof. exact C106_absorber_proof. Qed.
Print Assumptions C106_absorber.

(** A slab of absorber, ten thick. *)
Example C106_case :
  mixture slab_ext [1]%N (fun _ => slab_node) slab_material /\ absorbs slab_ext (fun _ => slab_node) slab_material 1
  /\ group_neutron [1]%N slab_neutron /\ p_energy slab_neutron = Group 1 /\ is_alive slab_neutron = true
  /\ c_material slab = Some slab_material /\ m_density slab_material = Fin 1
  /\ p_position slab_neutron = pt (V3 0 0 0) /\ p_direction slab_neutron = pt (V3 1 0 0)
  /\ meets_void slab_world slab (V3 0 0 0) (V3 1 0 0) 10
  /\ mixed_sum (fun _ => slab_node) slab_material (fun n => sigma slab_ext n Rcapture 1) = 1.
Proof. exact C106_example. Qed.
