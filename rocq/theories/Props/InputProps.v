(** Properties C63-C66: k-eigenvalue problems, source particles, and the world read
    from a document. *)
From Coq Require Import Bool String List Reals ZArith NArith Lra Lia Permutation.
From Verif Require Import Model.Num Model.Outcome Model.Rng Model.Xml Model.Std Model.Point
  Model.Surface Model.Types Model.Bins Model.Field Model.Particle Model.Material Model.World
  Model.Perturbation Model.Estimator Model.Transport Model.Driver Model.Schema Model.Program
  Spec.Vec Spec.RngSpec Spec.DirectionSpec Spec.TextExt Spec.EstimatorSpec Spec.SolverSpec
  Spec.KEigenSpec Spec.WorldSpec
  Proofs.RealLib Proofs.RngProofs Proofs.SampleProblem Proofs.SampleTally Proofs.SampleDocument
  Proofs.KEigenProofs Proofs.SourceProofs Proofs.WorldProofs Proofs.ProgramProofs
  Proofs.SampleProgram.
Import ListNotations.
Local Open Scope string_scope.
Local Open Scope R_scope.

(** C63 is false: solving a k-eigenvalue problem returns the initial estimators, even
    when transporting its source bank would score. The program ends well, under every
    schedule, and writes a report of zeros. *)
Theorem C63_initial :
  forall (A : Arith) (G : Rng A) (X : Ext A) (root : node) (ke : @keigen A G),
  keigen_create X root = Ok ke ->
  exists dr,
    driver_create X root
      (n_child (n_child (n_child root "problemtype") "keigenvalue") "initialsource") = Ok dr
    /\ ke_solve ke = dr_init dr
    (* the bank of the first cycle: one particle of the source per history, with the
       seeds 1, 2, ... whatever seed the document gives *)
    /\ length (ke_source_bank ke) = N.to_nat (dr_batchsize dr)
    /\ forall i p, nth_error (ke_source_bank ke) i = Some p ->
         p = source_sample (dr_source dr) (Z.of_nat i + 1).
Proof. exact C63_initial_proof. Qed.
Print Assumptions C63_initial.
Theorem C63_program :
  forall (A : Arith) (G : Rng A) (V : Env A) (path : string) (root : node) (pb : problem)
         fuel schedule,
  open_document V path = Ok root ->
  n_name (n_first_child (n_child root "problemtype")) = "keigenvalue" ->
  create_problem (G := G) V root = Ok pb ->
  exists r, blank_set r
    /\ main (G := G) V [path] fuel schedule
       = (if env_writable V (out_path path)
          then [Truncated (out_path path);
                Appended (out_path path) (show_N (dr_batchsize (problem_driver pb)) ++ newline);
                Appended (out_path path) (set_text (env_sci V) r)]
          else [], Ok tt).
Proof. exact C63_program_proof. Qed.
Print Assumptions C63_program.
Theorem C63_cycles_refuted :
  exists (G : Rng XRa) (X : Ext XRa) (root : node) (ke : keigen) (dr : @driver XRa) fuel r,
  keigen_create (G := G) X root = Ok ke
  /\ driver_create X root
      (n_child (n_child (n_child root "problemtype") "keigenvalue") "initialsource") = Ok dr
  /\ (0 < ke_last_inactive ke < ke_last_active ke)%N
  /\ ke_source_bank ke <> []
  /\ transported dr fuel (dr_init dr) (ke_source_bank ke) = Ok r
  /\ r <> dr_init dr
  /\ ke_solve ke = dr_init dr.
Proof. exact C63_cycles_refuted_proof. Qed.
Print Assumptions C63_cycles_refuted.

Example C63_case : exists ke : @keigen XRa half_rng,
  keigen_create (G := half_rng) slab_ext (slab_keigen "5" "3") = Ok ke
  /\ length (ke_source_bank ke) = 2%nat
  /\ let V := slab_env slab_ext keigen_xml in
     open_document V "dir/slab.xml" = Ok (slab_keigen "5" "3")
     /\ n_name (n_first_child (n_child (slab_keigen "5" "3") "problemtype")) = "keigenvalue"
     /\ create_problem (G := half_rng) V (slab_keigen "5" "3") = Ok (KEigenProblem slab_driver ke).
Proof.
  eexists. split; [unfold keigen_create; rewrite slab_keigen_driver; reflexivity|].
  split; [reflexivity|]. split; [reflexivity|]. split; [reflexivity|].
  unfold create_problem, keigen_create. cbn [env_ext slab_env env_at].
  change (n_name _) with "keigenvalue". cbn [String.eqb Ascii.eqb Bool.eqb].
  rewrite slab_keigen_driver. reflexivity.
Qed.

(** C64: whatever the schedule, each particle of the bank has been given to exactly one
    caller, is about to be, or is still in the bank; the answers are the particles from
    the back of the bank, then nothing; nothing is answered only when all have been
    given; no access to an empty bank happens; and somebody can always be answered. *)
Theorem C64_once :
  forall (A : Arith) (G : Rng A) (bank : list (particle A G)) (threads : nat)
    (schedule : list nat),
  let st := np_run (np_start threads bank) schedule in
  Permutation bank
    (flat_map (fun i => particles_of (answers_of i st)) (seq 0 threads)
     ++ in_flight st ++ np_bank st)
  /\ ~ In NpBroken (np_threads st).
Proof. exact C64_once_proof. Qed.
Print Assumptions C64_once.
Theorem C64_order :
  forall (A : Arith) (G : Rng A) (bank : list (particle A G)) (threads : nat)
    (schedule : list nat) (k : nat) (i : nat) (answer : option (particle A G)),
  let st := np_run (np_start threads bank) schedule in
  nth_error (np_answers st) k = Some (i, answer) ->
  answer = nth_error (rev bank) k.
Proof. exact C64_order_proof. Qed.
Print Assumptions C64_order.
Theorem C64_empty :
  forall (A : Arith) (G : Rng A) (bank : list (particle A G)) (threads : nat)
    (schedule : list nat) (i : nat),
  let st := np_run (np_start threads bank) schedule in
  In (i, None) (np_answers st) ->
  np_bank st = [] /\ in_flight st = []
  /\ Permutation bank (flat_map (fun j => particles_of (answers_of j st)) (seq 0 threads)).
Proof. exact C64_empty_proof. Qed.
Print Assumptions C64_empty.
Theorem C64_progress :
  forall (A : Arith) (G : Rng A) (bank : list (particle A G)) (threads : nat)
    (schedule : list nat),
  (0 < threads)%nat ->
  let st := np_run (np_start threads bank) schedule in
  exists i steps, (steps <= 5)%nat
    /\ length (np_answers (np_run st (repeat i steps))) = S (length (np_answers st)).
Proof. exact C64_progress_proof. Qed.
Print Assumptions C64_progress.

Definition bank_of (n : nat) : list (particle XRa half_rng) :=
  map (fun i => source_sample near_edge (Z.of_nat i)) (seq 1 n).
Example C64_case :
  (* two threads alternate: the second waits until the first is done *)
  let st := np_run (np_start 2 (bank_of 2)) [0; 1; 0; 1; 0; 1; 0; 0; 1; 0; 1; 1; 1; 1; 0; 0; 0]%nat in
  map fst (np_answers st) = [0; 1; 0]%nat
  /\ map snd (np_answers st) = [nth_error (bank_of 2) 1; nth_error (bank_of 2) 0; None]
  /\ np_bank st = [].
Proof. repeat split; reflexivity. Qed.

(** C65: a source particle follows the input; the direction is that of the vector
    written, isotropic, or has a cosine to it that is the root of a uniform number. A
    zero vector has no direction. *)
Theorem C65_particle :
  forall (A : Arith) (G : Rng A) (X : Ext A) (n : node) (so : source A) (seed : Z),
  source_create X n = Ok so ->
  let p := source_sample (G := G) so seed in
  let position := n_first_child (n_child n "position") in
  let energy := n_first_child (n_child n "energy") in
  let type := n_first_child (n_child n "particletype") in
  let nuclides := n_first_child (n_child (n_child (n_root (n_child n "energy")) "minimc") "nuclides") in
  is_alive p = true /\ p_event p = birth /\ p_cell p = None /\ p_surface p = None
  /\ p_secondaries p = [] /\ p_indirect p = []
  /\ p_position p = mkPoint (as_double X (n_attr position "x")) (as_double X (n_attr position "y"))
                            (as_double X (n_attr position "z"))
  /\ p_type p = to_type (as_string (n_attr type "type"))
  /\ ((n_name nuclides = "multigroup"
       /\ exists g, stoull X (as_string (n_attr energy "energy")) = Ok g /\ p_energy p = Group g)
      \/ (n_name nuclides = "continuous"
          /\ exists e, stod X (as_string (n_attr energy "energy")) = Ok e
                       /\ p_energy p = ContinuousE e)).
Proof. exact C65_particle_proof. Qed.
Print Assumptions C65_particle.
Theorem C65_direction :
  forall (G : Rng XRa) (X : Ext XRa) (n : node) (so : source XRa) (seed : Z) (v : vec),
  valid_rng G ->
  source_create X n = Ok so ->
  let p := source_sample (G := G) so seed in
  let direction := n_first_child (n_child n "direction") in
  (n_name direction <> "isotropic" -> v <> zero_vec /\
     as_double X (n_attr direction "x") = Fin (vx v)
     /\ as_double X (n_attr direction "y") = Fin (vy v)
     /\ as_double X (n_attr direction "z") = Fin (vz v)) ->
  (n_name direction = "constant" /\ p_direction p = pt (vscale (/ norm v) v))
  \/ (n_name direction = "isotropic"
      /\ p_direction p = fst (dir_isotropic G (rseed G seed)) /\ unit_point (p_direction p))
  \/ (n_name direction = "isotropic-flux"
      /\ exists u u' w, draw G 0 (rseed G seed) = Fin u /\ 0 <= u < 1
           /\ draw G 1 (rseed G seed) = Fin u' /\ 0 <= u' < 1
           /\ p_direction p = pt w /\ unit w
           /\ dot w (vscale (/ norm v) v) = sqrt u /\ 0 <= sqrt u < 1
           (* turned about the vector by an angle uniform on a full turn *)
           /\ pt w = dir_rotate (pt (vscale (/ norm v) v)) (Fin (sqrt u)) (Fin (2 * PI * u'))).
Proof. exact C65_direction_proof. Qed.
Print Assumptions C65_direction.
Theorem C65_zero_direction_refuted :
  exists (X : Ext XRa) (n : node),
  as_double X (n_attr n "x") = Fin 0 /\ as_double X (n_attr n "y") = Fin 0
  /\ as_double X (n_attr n "z") = Fin 0
  /\ dir_of_node X n = mkPoint (A := XRa) NaN NaN NaN.
Proof. exact C65_zero_direction_refuted_proof. Qed.
Print Assumptions C65_zero_direction_refuted.

Definition flux_source : node :=
  n_child (document [slab_nuclides; group "fixedsource"
    [group "position" [point_leaf "constant" "9.5"];
     group "direction" [point_leaf "isotropic-flux" "2"];
     group "energy" [leaf "constant" [("energy", "1")]];
     group "particletype" [leaf "constant" [("type", "neutron")]]]]) "fixedsource".
Example C65_case :
  valid_rng half_rng
  /\ (exists so, source_create slab_ext flux_source = Ok so)
  /\ n_name (n_first_child (n_child flux_source "direction")) = "isotropic-flux"
  /\ (let d := n_first_child (n_child flux_source "direction") in
      V3 2 0 0 <> zero_vec
      /\ as_double slab_ext (n_attr d "x") = Fin 2 /\ as_double slab_ext (n_attr d "y") = Fin 0
      /\ as_double slab_ext (n_attr d "z") = Fin 0).
Proof.
  split; [exact half_valid|]. split; [eexists; reflexivity|]. split; [reflexivity|].
  split; [intros [= E]; lra|]. cbn. decs. auto.
Qed.

(** C66: the world has one surface, nuclide and material per name used, each as its
    first declaration describes; the cells are those of the document, with the
    surfaces, senses, material and temperature listed; and a document that follows the
    schema makes a world exactly if every name used is declared, and an error
    otherwise. *)
Theorem C66_shared :
  forall (A : Arith) (X : Ext A) (root : node) (w : world A),
  world_create X root = Ok w ->
  let names := map (fun s => s_name (su_surface s)) (w_surfaces w) in
  NoDup names /\ NoDup (map nu_name (w_nuclides w)) /\ NoDup (map m_name (w_materials w))
  /\ (forall name, In name names <-> uses_surface root name)
  /\ (forall name, In name (map nu_name (w_nuclides w)) <-> uses_nuclide root name)
  /\ (forall name, In name (map m_name (w_materials w)) <-> uses_material root name).
Proof. exact C66_shared_proof. Qed.
Print Assumptions C66_shared.
Theorem C66_described :
  forall (A : Arith) (X : Ext A) (root : node) (w : world A),
  world_create X root = Ok w ->
  (forall s, In s (w_surfaces w) -> exists n,
     first_named (surface_group root) (s_name (su_surface s)) n
     /\ s_shape (su_surface s)
        = (if String.eqb (n_name n) "planex" then PlaneX (as_double X (n_attr n "x"))
           else if String.eqb (n_name n) "cylinderx" then CylinderX (as_double X (n_attr n "r"))
           else let c := n_child n "center" in
                Sphere (mkPoint (as_double X (n_attr c "x")) (as_double X (n_attr c "y"))
                                (as_double X (n_attr c "z")))
                       (as_double X (n_attr (n_child n "radius") "r"))))
  /\ (forall i nu, nth_error (w_nuclides w) i = Some nu -> exists n,
        first_named (nuclide_group root) (nu_name nu) n /\ nuclide_create X i n = Ok nu)
  /\ (forall m, In m (w_materials w) -> exists n,
        first_named (material_group root) (m_name m) n
        /\ m_density m = as_double X (n_attr n "aden")
        /\ NoDup (map (fun x => nu_name (fst x)) (m_afracs m))
        /\ (forall x, In x (m_afracs m) -> In (fst x) (w_nuclides w))
        /\ (forall name, In name (map (fun x => nu_name (fst x)) (m_afracs m))
             <-> exists c, In c (n_children n) /\ name_of c = name)).
Proof. exact C66_described_proof. Qed.
Print Assumptions C66_described.
Theorem C66_cells :
  forall (A : Arith) (X : Ext A) (root : node) (w : world A),
  world_create X root = Ok w ->
  Forall2 (cell_of X (w_surfaces w) (w_materials w) (w_temperature w))
    (cell_nodes root) (w_cells w).
Proof. exact C66_cells_proof. Qed.
Print Assumptions C66_cells.
Theorem C66_missing :
  forall (A : Arith) (X : Ext A) (root : node),
  well_formed root X ->
  ((exists w, world_create X root = Ok w) <-> complete root)
  /\ ((exists message, world_create X root = Throw message) <-> ~ complete root).
Proof. exact C66_missing_proof. Qed.
Print Assumptions C66_missing.

Example C66_case :
  (exists w, world_create slab_ext slab_fixed = Ok w)
  /\ well_formed slab_fixed slab_ext /\ complete slab_fixed
  /\ well_formed slab_bare slab_ext /\ ~ complete slab_bare
  /\ exists m, world_create slab_ext slab_bare = Throw m.
Proof.
  assert (E : exists w, world_create slab_ext slab_fixed = Ok w)
    by (eexists; apply world_read).
  split; [exact E|]. split; [exact fixed_well_formed|]. split.
  { now apply (C66_missing XRa slab_ext slab_fixed fixed_well_formed). }
  split; [exact bare_well_formed|]. split; [exact bare_incomplete|].
  apply (C66_missing XRa slab_ext slab_bare bare_well_formed), bare_incomplete.
Qed.
