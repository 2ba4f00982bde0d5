(** Property C105: how far a particle gets, and what becomes of it there. *)
From Coq Require Import Bool List Reals NArith.
From Verif Require Import Model.Num Model.Outcome Model.Rng Model.Xml Model.Point Model.Types Model.Particle
  Model.Material Model.World Model.Perturbation Model.Transport Spec.Vec Spec.MultigroupSpec Spec.TransportSpec
  Spec.ChanceSpec Spec.CollisionSpec Spec.BirthSpec Spec.StepSpec Proofs.SampleProblem Proofs.CollisionLaw
  Proofs.BirthLaw Proofs.StepLaw.
Import ListNotations.
Local Open Scope R_scope.

(** C105: under either tracking method, a step of a neutron in a mixture passes the surface ahead
    with the chance that no collision comes before it, and otherwise captures, scatters or splits
    a nucleus within a distance with the chance that the data say. *)
Theorem C105_step :
  forall (X : Ext XRa) (Gs : list N) (doc : nuclide XRa -> node) (m : material XRa) (c : cell XRa)
    (w : world XRa) (p : particle XRa Given) (g : N) (o v : vec) (D d : R) (t : tracking) (fuel more : nat),
  mixture X Gs doc m -> group_neutron Gs p -> p_energy p = Group g ->
  p_cell p = Some c -> c_material c = Some m -> m_density m = Fin d ->
  p_position p = pt o -> p_direction p = pt v -> heads w c o v D ->
  let all := mixed_sum doc m (any_reaction X g) in
  let stepped l := transport_step (A := XRa) t fuel w (set_rng p l) in
  let reached x := 1 - exp (- (d * all * x)) in
  (* past the surface *)
  chance (2 + more) (fun l => comes_to (stepped l) (fun q => negb (within o v D q) && crossed q))
    (exp (- (d * all * D)))
  (* capture before [x] *)
  /\ (forall x, 0 <= x <= D ->
       chance (4 + more) (fun l => comes_to (stepped l) (fun q => within o v x q && event_eqb (p_event q) capture))
         (reached x * (mixed_sum doc m (fun n => sigma X n Rcapture g) / all)))
  (* scattering before [x] into group [h], with a cosine to the x axis below [y] *)
  /\ (forall x h y, 0 <= x <= D -> In h Gs -> -1 <= y <= 1 ->
       chance (6 + more)
         (fun l => comes_to (stepped l)
            (fun q => within o v x q && (event_eqb (p_event q) scatter && in_group h q && cosine_below y q)))
         (reached x * (mixed_sum doc m (transfer X g h) / all * ((1 + y) / 2))))
  (* fission before [x] with the neutrons [ws] *)
  /\ (forall x ws, 0 <= x <= D ->
       (forall nu a, In (nu, a) (m_afracs m) -> fission_node (doc nu) <> None ->
          0 < column_sum X (doc nu) (chi_node (doc nu)) g) ->
       List.Forall (fun w => In (fst w) Gs /\ -1 <= snd w <= 1) ws ->
       chance (5 + (4 * length ws + more))
         (fun l => comes_to (stepped l)
            (fun q => within o v x q
                      && (event_eqb (p_event q) fission
                          && as_wanted ws (skipn (length (p_secondaries p)) (p_secondaries q)))))
         (reached x * (mixed_sum doc m (fun n => multiplying X g (length ws) n * all_emitted X g ws n) / all))).
Proof. exact C105_step_proof. Qed.
Print Assumptions C105_step.

(** Fuel in a moderator, ten away from the vacuum. *)
Example C105_case :
  mixture slab_ext [1; 2]%N blend_doc blend /\ group_neutron [1; 2]%N blend_neutron
  /\ p_energy blend_neutron = Group 1 /\ p_cell blend_neutron = Some blend_cell
  /\ c_material blend_cell = Some blend /\ m_density blend = Fin 1
  /\ p_position blend_neutron = pt (V3 0 0 0) /\ p_direction blend_neutron = pt (V3 1 0 0)
  /\ heads blend_world blend_cell (V3 0 0 0) (V3 1 0 0) 10
  /\ (forall nu a, In (nu, a) (m_afracs blend) -> fission_node (blend_doc nu) <> None ->
        0 < column_sum slab_ext (blend_doc nu) (chi_node (blend_doc nu)) 1)
  /\ mixed_sum blend_doc blend (any_reaction slab_ext 1) = 3
  /\ mixed_sum blend_doc blend (fun n => sigma slab_ext n Rcapture 1) = 1 / 4
  /\ mixed_sum blend_doc blend (transfer slab_ext 1 2) = 1.
Proof. exact C105_example. Qed.
