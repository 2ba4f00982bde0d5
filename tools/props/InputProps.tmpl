(** Properties C63-C66: k-eigenvalue problems, source particles, and the world read
    from a document. *)
From Coq Require Import Bool String List Reals ZArith NArith Lra Lia Permutation.
From Verif Require Import Model.Num Model.Outcome Model.Rng Model.Xml Model.Std Model.Point
  Model.Surface Model.Types Model.Bins Model.Field Model.Particle Model.Material Model.World
  Model.Perturbation Model.Estimator Model.Transport Model.Driver Model.Schema Model.Program
  Spec.Vec Spec.RngSpec Spec.DirectionSpec Spec.TextExt Spec.EstimatorSpec Spec.SolverSpec
  Spec.KEigenSpec Spec.WorldSpec
  Proofs.RealLib Proofs.RngProofs Proofs.SampleProblem Proofs.SampleTally Proofs.SampleDocument
  Proofs.KEigenProofs Proofs.SourceProofs Proofs.WorldProofs Proofs.ProgramProofs
  Proofs.SampleProgram.
Import ListNotations.
Local Open Scope string_scope.
Local Open Scope R_scope.

(** C63 is false: solving a k-eigenvalue problem returns the initial estimators, even
    when transporting its source bank would score. The program ends well, under every
    schedule, and writes a report of zeros. *)
@@C63_initial
@@C63_program
@@C63_cycles_refuted

Example C63_case : exists ke : @keigen XRa half_rng,
  keigen_create (G := half_rng) slab_ext (slab_keigen "5" "3") = Ok ke
  /\ length (ke_source_bank ke) = 2%nat
  /\ let V := slab_env slab_ext keigen_xml in
     open_document V "dir/slab.xml" = Ok (slab_keigen "5" "3")
     /\ n_name (n_first_child (n_child (slab_keigen "5" "3") "problemtype")) = "keigenvalue"
     /\ create_problem (G := half_rng) V (slab_keigen "5" "3") = Ok (KEigenProblem slab_driver ke).
Proof.
  eexists. split; [unfold keigen_create; rewrite slab_keigen_driver; reflexivity|].
  split; [reflexivity|]. split; [reflexivity|]. split; [reflexivity|].
  unfold create_problem, keigen_create. cbn [env_ext slab_env env_at].
  change (n_name _) with "keigenvalue". cbn [String.eqb Ascii.eqb Bool.eqb].
  rewrite slab_keigen_driver. reflexivity.
Qed.

(** C64: whatever the schedule, each particle of the bank has been given to exactly one
    caller, is about to be, or is still in the bank; the answers are the particles from
    the back of the bank, then nothing; nothing is answered only when all have been
    given; no access to an empty bank happens; and somebody can always be answered. *)
@@C64_once
@@C64_order
@@C64_empty
@@C64_progress

Definition bank_of (n : nat) : list (particle XRa half_rng) :=
  map (fun i => source_sample near_edge (Z.of_nat i)) (seq 1 n).
Example C64_case :
  (* two threads alternate: the second waits until the first is done *)
  let st := np_run (np_start 2 (bank_of 2)) [0; 1; 0; 1; 0; 1; 0; 0; 1; 0; 1; 1; 1; 1; 0; 0; 0]%nat in
  map fst (np_answers st) = [0; 1; 0]%nat
  /\ map snd (np_answers st) = [nth_error (bank_of 2) 1; nth_error (bank_of 2) 0; None]
  /\ np_bank st = [].
Proof. repeat split; reflexivity. Qed.

(** C65: a source particle follows the input; the direction is that of the vector
    written, isotropic, or has a cosine to it that is the root of a uniform number. A
    zero vector has no direction. *)
@@C65_particle
@@C65_direction
@@C65_zero_direction_refuted

Definition flux_source : node :=
  n_child (document [slab_nuclides; group "fixedsource"
    [group "position" [point_leaf "constant" "9.5"];
     group "direction" [point_leaf "isotropic-flux" "2"];
     group "energy" [leaf "constant" [("energy", "1")]];
     group "particletype" [leaf "constant" [("type", "neutron")]]]]) "fixedsource".
Example C65_case :
  valid_rng half_rng
  /\ (exists so, source_create slab_ext flux_source = Ok so)
  /\ n_name (n_first_child (n_child flux_source "direction")) = "isotropic-flux"
  /\ (let d := n_first_child (n_child flux_source "direction") in
      V3 2 0 0 <> zero_vec
      /\ as_double slab_ext (n_attr d "x") = Fin 2 /\ as_double slab_ext (n_attr d "y") = Fin 0
      /\ as_double slab_ext (n_attr d "z") = Fin 0).
Proof.
  split; [exact half_valid|]. split; [eexists; reflexivity|]. split; [reflexivity|].
  split; [intros [= E]; lra|]. cbn. decs. auto.
Qed.

(** C66: the world has one surface, nuclide and material per name used, each as its
    first declaration describes; the cells are those of the document, with the
    surfaces, senses, material and temperature listed; and a document that follows the
    schema makes a world exactly if every name used is declared, and an error
    otherwise. *)
@@C66_shared
@@C66_described
@@C66_cells
@@C66_missing

Example C66_case :
  (exists w, world_create slab_ext slab_fixed = Ok w)
  /\ well_formed slab_fixed slab_ext /\ complete slab_fixed
  /\ well_formed slab_bare slab_ext /\ ~ complete slab_bare
  /\ exists m, world_create slab_ext slab_bare = Throw m.
Proof.
  assert (E : exists w, world_create slab_ext slab_fixed = Ok w)
    by (eexists; apply world_read).
  split; [exact E|]. split; [exact fixed_well_formed|]. split.
  { now apply (C66_missing XRa slab_ext slab_fixed fixed_well_formed). }
  split; [exact bare_well_formed|]. split; [exact bare_incomplete|].
  apply (C66_missing XRa slab_ext slab_bare bare_well_formed), bare_incomplete.
Qed.
