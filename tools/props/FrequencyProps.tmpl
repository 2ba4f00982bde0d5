(** Properties C84: how often things happen when every state of the random number
    generator, or a whole cycle of histories, is looked at. C85: no random number is used
    for two choices. *)
From Coq Require Import Bool String List Reals ZArith NArith Lra Lia.
From Verif Require Import Model.Num Model.Outcome Model.Rng Model.Xml Model.Std Model.Point
  Model.Surface Model.Types Model.Bins Model.Field Model.Particle Model.Multigroup
  Model.Continuous Model.Material Model.World Model.Perturbation Model.Estimator Model.Transport
  Model.Driver
  Spec.Vec Spec.RngSpec Spec.SumSpec Spec.MultigroupSpec Spec.MaterialSpec Spec.TextExt
  Spec.FrequencySpec Spec.FreshSpec Spec.TransportSpec
  Proofs.RealLib Proofs.GeometryProofs Proofs.RngProofs Proofs.MultigroupReal Proofs.SampleProblem Proofs.SampleTally
  Proofs.SampleFission Proofs.FrequencyProofs
  Proofs.FreshProofs.
Import ListNotations.
Local Open Scope string_scope.
Local Open Scope R_scope.

(** C84 *)
@@C84_uniform
@@C84_histories
@@C84_flight
@@C84_reactions
@@C84_nuclides

(** One-group nuclides with capture only, a quarter of one and three quarters of another. *)
Definition absorbing (id : nat) (x : R) : nuclide XRa :=
  mkNuclide id "absorber" [(neutron, IMultigroup (A := XRa)
    (mkMultigroup (A := XRa) None None None [(Rcapture, [Fin x])] [Fin x] 1%N))].
Definition alloy : material XRa :=
  mkMaterial (A := XRa) "alloy" [(absorbing 0 1, Fin (1 / 4)); (absorbing 1 3, Fin (3 / 4))] (Fin 1).
Definition ingot : cell XRa :=
  mkCell 0 "left" [(mkSurf 0 (mkSurface "left" (PlaneX (Fin 1 : num XRa))), true)]
    (Some alloy) (constant_field (Fin 300 : num XRa)).
Definition visitor : particle XRa (Minstd XRa) :=
  new_particle (G := Minstd XRa) (pt (V3 0 0 0)) (pt (V3 1 0 0)) (Group 1) neutron 1 (Some ingot).
Example C84_case :
  (dr_seed slab_driver + cycle <= 2 ^ 64)%N
  (* half of the cycle captures and half causes fissions *)
  /\ multigroup_create slab_ext pile_node = Ok pile_data /\ sensible_data slab_ext pile_node
  /\ In 1%N (groups (written_groups slab_ext pile_node))
  /\ sigma slab_ext pile_node Rcapture 1 / (sigma slab_ext pile_node Rcapture 1
       + sigma slab_ext pile_node Rscatter 1 + sigma slab_ext pile_node Rfission 1) = 1 / 2
  (* nine tenths of it collide with the second nuclide *)
  /\ p_cell visitor = Some ingot /\ c_material ingot = Some alloy
  /\ List.Forall (plain visitor) (m_afracs alloy)
  /\ m_afracs alloy = ([(absorbing 0 1, Fin (1 / 4))] ++ (absorbing 1 3, Fin (3 / 4)) :: [])%list
  /\ ~ In (absorbing 1 3) (map fst ([(absorbing 0 1, Fin (1 / 4) : num XRa)] ++ []))%list
  /\ fraction (absorbing 1 3, Fin (3 / 4) : num XRa) * total_at visitor (absorbing 1 3, Fin (3 / 4))
     / weighted (total_at visitor) (m_afracs alloy) = 9 / 10.
Proof.
  split; [vm_compute; discriminate|]. split; [exact pile_created|]. split; [exact pile_sensible|].
  split; [rewrite pile_groups; now left|].
  split; [destruct pile_sigma as (-> & -> & ->); lra|].
  split; [reflexivity|]. split; [reflexivity|]. split; [repeat constructor; cbn; lra|].
  split; [reflexivity|]. split; [intros [E|[]]; discriminate|].
  unfold weighted; cbn. lra.
Qed.

(** C85 *)
@@C85_collision
@@C85_step
@@C85_new_numbers

Example C85_case :
  (* collisions in the pile: captures and fissions *)
  multigroup_create slab_ext pile_node = Ok pile_data /\ sensible_data slab_ext pile_node
  /\ In 1%N (groups (written_groups slab_ext pile_node))
  /\ 0 < sigma slab_ext pile_node Rcapture 1 + sigma slab_ext pile_node Rscatter 1
         + sigma slab_ext pile_node Rfission 1
  /\ 0 < column_sum slab_ext pile_node (chi_node pile_node) 1
  /\ (forall p : particle XRa (Minstd XRa), p_energy p = Group 1 ->
        exists q, mg_interact pile_data p = Ok q)
  (* a step in it *)
  /\ (exists q, transport_step SurfaceTracking 1 pile_world (set_cell pile_start pile) = Ok q)
  (* numbers used before a fission of two secondaries are used only once *)
  /\ (0 < raws ([Uniform; Uniform; Uniform; Uniform] ++ [Uniform; Uniform; Uniform; Raw]
                ++ [Uniform; Uniform; Uniform; Raw]) < cycle)%N.
Proof.
  assert (T : 0 < sigma slab_ext pile_node Rcapture 1 + sigma slab_ext pile_node Rscatter 1
         + sigma slab_ext pile_node Rfission 1).
  { destruct pile_sigma as (-> & -> & ->). lra. }
  assert (Hg : In 1%N (groups (written_groups slab_ext pile_node)))
    by (rewrite pile_groups; now left).
  split; [exact pile_created|]. split; [exact pile_sensible|]. split; [exact Hg|].
  split; [exact T|]. split; [apply pile_yield|]. split.
  - intros p Hp.
    destruct (C24_reaction_choice_proof (Minstd XRa) slab_ext pile_node pile_data p 1)
      as (u & q & _ & _ & Eq & _); auto using pile_created, pile_sensible, minstd_valid.
    now exists q.
  - split; [|vm_compute; split; reflexivity].
    destruct (pile_step 1 (set_cell pile_start pile) (V3 0 0 0)) as (q & y & Eq & _);
      [reflexivity|reflexivity|cbn; lra| |now exists q].
    constructor; try reflexivity.
    + exists 1%N. split; [reflexivity|now left].
    + eexists. reflexivity.
    + exists (V3 1 0 0). split; [reflexivity|apply unit_x].
Qed.
