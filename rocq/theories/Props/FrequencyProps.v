(** Properties C84: how often things happen when every state of the random number
    generator, or a whole cycle of histories, is looked at. C85: no random number is used
    for two choices. *)
From Coq Require Import Bool String List Reals ZArith NArith Lra Lia.
From Verif Require Import Model.Num Model.Outcome Model.Rng Model.Xml Model.Std Model.Point
  Model.Surface Model.Types Model.Bins Model.Field Model.Particle Model.Multigroup
  Model.Continuous Model.Material Model.World Model.Perturbation Model.Estimator Model.Transport
  Model.Driver
  Spec.Vec Spec.RngSpec Spec.SumSpec Spec.MultigroupSpec Spec.MaterialSpec Spec.TextExt
  Spec.FrequencySpec Spec.FreshSpec Spec.TransportSpec
  Proofs.RealLib Proofs.GeometryProofs Proofs.RngProofs Proofs.MultigroupReal Proofs.SampleProblem Proofs.SampleTally
  Proofs.SampleFission Proofs.FrequencyProofs
  Proofs.FreshProofs.
Import ListNotations.
Local Open Scope string_scope.
Local Open Scope R_scope.

(** C84 *)
Theorem C84_uniform :
  forall (k : nat) (x y : R), 0 <= x <= y -> y <= 1 ->
  frequency (fun s : rst (Minstd XRa) =>
           exists u, draw (Minstd XRa) k s = Fin u /\ x <= u < y) (y - x) 2.
Proof. exact C84_uniform_proof. Qed.
Print Assumptions C84_uniform.
Theorem C84_histories :
  forall (dr : @driver XRa) (k : nat) (x y : R),
  (dr_seed dr + cycle <= 2 ^ 64)%N -> 0 <= x <= y -> y <= 1 ->
  frequency (fun i : N => (i < cycle)%N /\
           exists u, draw (Minstd XRa) k (p_rng (history_start (G := Minstd XRa) dr i)) = Fin u
                     /\ x <= u < y) (y - x) 3.
Proof. exact C84_histories_proof. Qed.
Print Assumptions C84_histories.
Theorem C84_flight :
  forall (dr : @driver XRa) (k : nat) (rate y : R),
  (dr_seed dr + cycle <= 2 ^ 64)%N -> 0 < rate -> 0 <= y ->
  frequency (fun i : N => (i < cycle)%N /\
           exists d, fst (exponential (Minstd XRa) (Fin rate : num XRa)
                            (advance (Minstd XRa) k
                               (p_rng (history_start (G := Minstd XRa) dr i)))) = Fin d
                     /\ y < d) (exp (- (rate * y))) 2.
Proof. exact C84_flight_proof. Qed.
Print Assumptions C84_flight.
Theorem C84_reactions :
  forall (X : Ext XRa) n m (p : particle XRa (Minstd XRa)) g,
  multigroup_create X n = Ok m -> sensible_data X n ->
  In g (groups (written_groups X n)) -> p_energy p = Group g ->
  let c := sigma X n Rcapture g in
  let s := sigma X n Rscatter g in
  let f := sigma X n Rfission g in
  0 < c + s + f ->
  let happens (ev : event) (x : rst (Minstd XRa)) : Prop :=
    exists q, mg_interact m (set_rng p x) = Ok q /\ p_event q = ev in
  frequency (happens capture) (c / (c + s + f)) 2
  /\ frequency (happens scatter) (s / (c + s + f)) 2
  /\ frequency (happens fission) (f / (c + s + f)) 2.
Proof. exact C84_reactions_proof. Qed.
Print Assumptions C84_reactions.
Theorem C84_nuclides :
  forall (p : particle XRa (Minstd XRa)) c m pre nu a post,
  p_cell p = Some c -> c_material c = Some m ->
  List.Forall (plain p) (m_afracs m) -> 0 < weighted (total_at p) (m_afracs m) ->
  m_afracs m = (pre ++ (nu, a) :: post)%list ->
  ~ In nu (map fst (pre ++ post)) ->
  frequency (fun x : rst (Minstd XRa) => exists q, sample_nuclide (set_rng p x) = Ok (nu, q))
    (fraction (nu, a) * total_at p (nu, a) / weighted (total_at p) (m_afracs m)) 2.
Proof. exact C84_nuclides_proof. Qed.
Print Assumptions C84_nuclides.

(** One-group nuclides with capture only, a quarter of one and three quarters of another. *)
Definition absorbing (id : nat) (x : R) : nuclide XRa :=
  mkNuclide id "absorber" [(neutron, IMultigroup (A := XRa)
    (mkMultigroup (A := XRa) None None None [(Rcapture, [Fin x])] [Fin x] 1%N))].
Definition alloy : material XRa :=
  mkMaterial (A := XRa) "alloy" [(absorbing 0 1, Fin (1 / 4)); (absorbing 1 3, Fin (3 / 4))] (Fin 1).
Definition ingot : cell XRa :=
  mkCell 0 "left" [(mkSurf 0 (mkSurface "left" (PlaneX (Fin 1 : num XRa))), true)]
    (Some alloy) (constant_field (Fin 300 : num XRa)).
Definition visitor : particle XRa (Minstd XRa) :=
  new_particle (G := Minstd XRa) (pt (V3 0 0 0)) (pt (V3 1 0 0)) (Group 1) neutron 1 (Some ingot).
Example C84_case :
  (dr_seed slab_driver + cycle <= 2 ^ 64)%N
  (* half of the cycle captures and half causes fissions *)
  /\ multigroup_create slab_ext pile_node = Ok pile_data /\ sensible_data slab_ext pile_node
  /\ In 1%N (groups (written_groups slab_ext pile_node))
  /\ sigma slab_ext pile_node Rcapture 1 / (sigma slab_ext pile_node Rcapture 1
       + sigma slab_ext pile_node Rscatter 1 + sigma slab_ext pile_node Rfission 1) = 1 / 2
  (* nine tenths of it collide with the second nuclide *)
  /\ p_cell visitor = Some ingot /\ c_material ingot = Some alloy
  /\ List.Forall (plain visitor) (m_afracs alloy)
  /\ m_afracs alloy = ([(absorbing 0 1, Fin (1 / 4))] ++ (absorbing 1 3, Fin (3 / 4)) :: [])%list
  /\ ~ In (absorbing 1 3) (map fst ([(absorbing 0 1, Fin (1 / 4) : num XRa)] ++ []))%list
  /\ fraction (absorbing 1 3, Fin (3 / 4) : num XRa) * total_at visitor (absorbing 1 3, Fin (3 / 4))
     / weighted (total_at visitor) (m_afracs alloy) = 9 / 10.
Proof.
  split; [vm_compute; discriminate|]. split; [exact pile_created|]. split; [exact pile_sensible|].
  split; [rewrite pile_groups; now left|].
  split; [destruct pile_sigma as (-> & -> & ->); lra|].
  split; [reflexivity|]. split; [reflexivity|]. split; [repeat constructor; cbn; lra|].
  split; [reflexivity|]. split; [intros [E|[]]; discriminate|].
  unfold weighted; cbn. lra.
Qed.

(** C85 *)
Theorem C85_collision :
  forall (G : Rng XRa) (X : Ext XRa) n m (p q : particle XRa G) g,
  valid_rng G -> multigroup_create X n = Ok m -> sensible_data X n ->
  In g (groups (written_groups X n)) -> p_energy p = Group g ->
  0 < sigma X n Rcapture g + sigma X n Rscatter g + sigma X n Rfission g ->
  (fission_node n <> None -> 0 < column_sum X n (chi_node n) g) ->
  mg_interact m p = Ok q ->
  match p_event q with
  (* one number, for the choice of the reaction *)
  | capture => p_rng q = after_calls G [Uniform] (p_rng p)
  (* one more for the group, and two for the direction *)
  | scatter => p_direction q = fst (dir_isotropic G (after_calls G [Uniform; Uniform] (p_rng p)))
               /\ p_rng q = after_calls G [Uniform; Uniform; Uniform; Uniform] (p_rng p)
  (* one more for the yield, then those of each secondary *)
  | fission => exists new, p_secondaries q = (p_secondaries p ++ new)%list
               /\ born_from X n g (after_calls G [Uniform; Uniform] (p_rng p)) new (p_rng q)
  | _ => False
  end.
Proof. exact C85_collision_proof. Qed.
Print Assumptions C85_collision.
Theorem C85_step :
  forall (A : Arith) (G : Rng A) t fuel (w : world A) (p q : particle A G),
  transport_step t fuel w p = Ok q ->
  (* a crossing: one number, for the length of the flight *)
  p_rng q = after_calls G [Uniform] (p_rng p) /\ (p_event q = surface_cross \/ p_event q = leak)
  (* a virtual collision: one more for its acceptance *)
  \/ (t = CellDeltaTracking /\ p_event q = virtual_collision
      /\ p_rng q = after_calls G [Uniform; Uniform] (p_rng p))
  (* a collision: one more for the nuclide, and those of the interaction *)
  \/ (exists c m nu a p1, in_material p c m /\ In (nu, a) (m_afracs m)
      /\ nu_interact fuel nu p1 = Ok q /\ p_energy p1 = p_energy p /\ p_type p1 = p_type p
      /\ p_secondaries p1 = p_secondaries p /\ p_surface p1 = p_surface p
      /\ p_rng p1 = match t with
                    | SurfaceTracking => after_calls G [Uniform; Uniform] (p_rng p)
                    | CellDeltaTracking => after_calls G [Uniform; Uniform; Uniform] (p_rng p)
                    end).
Proof. exact C85_step_proof. Qed.
Print Assumptions C85_step.
Theorem C85_new_numbers :
  forall (A : Arith) (s : rst (Minstd A)) (before between : list call),
  (0 < raws between < cycle)%N ->
  after_calls (Minstd A) (before ++ between) s <> after_calls (Minstd A) before s.
Proof. exact C85_new_numbers_proof. Qed.
Print Assumptions C85_new_numbers.

Example C85_case :
  (* collisions in the pile: captures and fissions *)
  multigroup_create slab_ext pile_node = Ok pile_data /\ sensible_data slab_ext pile_node
  /\ In 1%N (groups (written_groups slab_ext pile_node))
  /\ 0 < sigma slab_ext pile_node Rcapture 1 + sigma slab_ext pile_node Rscatter 1
         + sigma slab_ext pile_node Rfission 1
  /\ 0 < column_sum slab_ext pile_node (chi_node pile_node) 1
  /\ (forall p : particle XRa (Minstd XRa), p_energy p = Group 1 ->
        exists q, mg_interact pile_data p = Ok q)
  (* a step in it *)
  /\ (exists q, transport_step SurfaceTracking 1 pile_world (set_cell pile_start pile) = Ok q)
  (* numbers used before a fission of two secondaries are used only once *)
  /\ (0 < raws ([Uniform; Uniform; Uniform; Uniform] ++ [Uniform; Uniform; Uniform; Raw]
                ++ [Uniform; Uniform; Uniform; Raw]) < cycle)%N.
Proof.
  assert (T : 0 < sigma slab_ext pile_node Rcapture 1 + sigma slab_ext pile_node Rscatter 1
         + sigma slab_ext pile_node Rfission 1).
  { destruct pile_sigma as (-> & -> & ->). lra. }
  assert (Hg : In 1%N (groups (written_groups slab_ext pile_node)))
    by (rewrite pile_groups; now left).
  split; [exact pile_created|]. split; [exact pile_sensible|]. split; [exact Hg|].
  split; [exact T|]. split; [apply pile_yield|]. split.
  - intros p Hp.
    destruct (C24_reaction_choice_proof (Minstd XRa) slab_ext pile_node pile_data p 1)
      as (u & q & _ & _ & Eq & _); auto using pile_created, pile_sensible, minstd_valid.
    now exists q.
  - split; [|vm_compute; split; reflexivity].
    destruct (pile_step 1 (set_cell pile_start pile) (V3 0 0 0)) as (q & y & Eq & _);
      [reflexivity|reflexivity|cbn; lra| |now exists q].
    constructor; try reflexivity.
    + exists 1%N. split; [reflexivity|now left].
    + eexists. reflexivity.
    + exists (V3 1 0 0). split; [reflexivity|apply unit_x].
Qed.
