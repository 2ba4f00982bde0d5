(** Property C102: collisions come to what the data say, as often as the data say. *)
From Coq Require Import Bool List Reals NArith.
From Verif Require Import Model.Num Model.Outcome Model.Rng Model.Xml Model.Types Model.Particle Model.Material
  Model.Perturbation Model.Transport Spec.MultigroupSpec Spec.TransportSpec Spec.ChanceSpec Spec.CollisionSpec
  Proofs.SampleProblem Proofs.CollisionLaw.
Import ListNotations.
Local Open Scope R_scope.

(** C102: the chance that a collision in a mixture ends in capture, in scattering into a given
    group with a cosine to the x axis below a given number, or in fission with a given number
    of neutrons. *)
Theorem C102_collision :
  forall (X : Ext XRa) (Gs : list N) (doc : nuclide XRa -> node) (m : material XRa) (c : cell XRa)
    (p : particle XRa Given) (g : N) (fuel : nat) (t : tracking) (d : R) (more : nat),
  mixture X Gs doc m -> group_neutron Gs p -> p_energy p = Group g ->
  p_cell p = Some c -> c_material c = Some m ->
  let all := mixed_sum doc m (any_reaction X g) in
  let collided l := collide (A := XRa) fuel t (Fin d) (set_rng p l) in
  (* capture *)
  chance (2 + more) (fun l => comes_to (collided l) (fun q => event_eqb (p_event q) capture))
    (mixed_sum doc m (fun n => sigma X n Rcapture g) / all)
  (* scattering into group [h], with a cosine to the x axis below [x] *)
  /\ (forall h x, In h Gs -> -1 <= x <= 1 ->
       chance (4 + more)
         (fun l => comes_to (collided l) (fun q => event_eqb (p_event q) scatter && in_group h q && cosine_below x q))
         (mixed_sum doc m (transfer X g h) / all * ((1 + x) / 2)))
  (* fission with [j] neutrons *)
  /\ (forall j, (forall nu a, In (nu, a) (m_afracs m) -> fission_node (doc nu) <> None ->
                   0 < column_sum X (doc nu) (chi_node (doc nu)) g) ->
       chance (3 + more)
         (fun l => comes_to (collided l)
            (fun q => event_eqb (p_event q) fission
                      && Nat.eqb (length (p_secondaries q)) (length (p_secondaries p) + j)))
         (mixed_sum doc m (multiplying X g j) / all)).
Proof. exact C102_collision_proof. Qed.
Print Assumptions C102_collision.

(** The numbers of neutrons have the average yield for their mean. *)
Theorem C102_yield :
  forall nu, 0 <= nu -> exists k : nat, INR k <= nu < INR k + 1
  /\ rounded nu k + rounded nu (S k) = 1
  /\ INR k * rounded nu k + INR (S k) * rounded nu (S k) = nu
  /\ forall j, j <> k -> j <> S k -> rounded nu j = 0.
Proof. exact C102_yield_proof. Qed.
Print Assumptions C102_yield.

(** A quarter of fuel in a moderator. *)
Example C102_case :
  mixture slab_ext [1; 2]%N blend_doc blend /\ group_neutron [1; 2]%N blend_neutron
  /\ p_energy blend_neutron = Group 1 /\ p_cell blend_neutron = Some blend_cell
  /\ c_material blend_cell = Some blend
  /\ (forall nu a, In (nu, a) (m_afracs blend) -> fission_node (blend_doc nu) <> None ->
        0 < column_sum slab_ext (blend_doc nu) (chi_node (blend_doc nu)) 1)
  /\ mixed_sum blend_doc blend (any_reaction slab_ext 1) = 3
  /\ mixed_sum blend_doc blend (fun n => sigma slab_ext n Rcapture 1) = 1 / 4
  /\ mixed_sum blend_doc blend (transfer slab_ext 1 2) = 1
  /\ mixed_sum blend_doc blend (multiplying slab_ext 1 2) = 1 / 8.
Proof. exact C102_example. Qed.
