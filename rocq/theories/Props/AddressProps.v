(** Property C97: results and where the objects of a run lie in memory. *)
From Coq Require Import Bool String List ZArith NArith Permutation.
From Verif Require Import Model.Num Model.Outcome Model.Rng Model.Xml Model.Point Model.Types
  Model.World Model.Driver Model.Schema Model.Program Spec.AddressSpec Spec.DoublePlaneSpec
  Proofs.SampleProblem Proofs.SampleDocument Proofs.SampleProgram Proofs.SampleDocuments Proofs.RepoTests
  Proofs.AddressProofs.
Import ListNotations.
Local Open Scope string_scope.

(** C97: only the order of the addresses matters. *)
Theorem C97_order :
  forall (A : Arith) (G : Rng A) (V : Env A) surfaces nuclides surfaces' nuclides'
    arguments fuel schedule,
  same_order surfaces surfaces' -> same_order nuclides nuclides' ->
  main (G := G) (moved_env V surfaces nuclides) arguments fuel schedule
  = main (G := G) (moved_env V surfaces' nuclides') arguments fuel schedule.
Proof. exact C97_order_proof. Qed.
Print Assumptions C97_order.
(** It does not matter either if no material has two nuclides and no cell two surfaces. *)
Theorem C97_few :
  forall (A : Arith) (G : Rng A) (V : Env A) surfaces nuclides surfaces' nuclides'
    path root fuel schedule,
  open_document V path = Ok root -> few root ->
  main (G := G) (moved_env V surfaces nuclides) [path] fuel schedule
  = main (G := G) (moved_env V surfaces' nuclides') [path] fuel schedule.
Proof. exact C97_few_proof. Qed.
Print Assumptions C97_few.
(** For every document the worlds built differ only in the order of the surfaces of a cell
    and of the nuclides of a material (and in the rounding of their fractions) ... *)
Theorem C97_built :
  forall (A : Arith) (X : Ext A) surfaces nuclides surfaces' nuclides' root,
  both (same_world in_some_order same_objects)
    (world_create (moved X surfaces nuclides) root)
    (world_create (moved X surfaces' nuclides') root).
Proof. exact C97_built_proof. Qed.
Print Assumptions C97_built.
(** ... and in exact arithmetic only in the order. *)
Theorem C97_exact :
  forall (X : Ext XRa) surfaces nuclides surfaces' nuclides' root,
  both (same_world in_some_order in_some_order)
    (world_create (moved X surfaces nuclides) root)
    (world_create (moved X surfaces' nuclides') root).
Proof. exact C97_exact_proof. Qed.
Print Assumptions C97_exact.
(** The cell that contains a point is the same. *)
Theorem C97_place :
  forall (A : Arith) nuclides (w w' : world A) (p : point A),
  same_world in_some_order nuclides w w' ->
  both (same_cell in_some_order nuclides) (find_cell w p) (find_cell w' p).
Proof. exact C97_place_proof. Qed.
Print Assumptions C97_place.
(** One history in a slab of two nuclides (tools/docs/address_nuclides.xml): with the
    nuclides in the order in which they are made the neutron leaks, with the two exchanged
    it does not. *)
Theorem C97_nuclides_refuted :
  valid_document repo_lexical doc_address_nuclides = true
  /\ reported (moved repo_ext in_a_row in_a_row) (root doc_address_nuclides) 1 "leakage"
     = Ok (nofZ (F64 quick_libm) 1)
  /\ reported (moved repo_ext in_a_row (exchanged 0 1)) (root doc_address_nuclides) 1 "leakage"
     = Ok (nofZ (F64 quick_libm) 0).
Proof. exact C97_nuclides_refuted_proof. Qed.
Print Assumptions C97_nuclides_refuted.
(** One history to a point where a plane touches a sphere
    (tools/docs/address_surfaces.xml): it is counted at the one that comes first. *)
Theorem C97_surfaces_refuted :
  valid_document repo_lexical doc_address_surfaces = true
  /\ (let row := reported (moved repo_ext in_a_row in_a_row) (root doc_address_surfaces) 1 in
      row "at the ball" = Ok (nofZ (F64 quick_libm) 1)
      /\ row "at the wall" = Ok (nofZ (F64 quick_libm) 0))
  /\ (let row := reported (moved repo_ext (exchanged 1 2) in_a_row) (root doc_address_surfaces) 1 in
      row "at the ball" = Ok (nofZ (F64 quick_libm) 0)
      /\ row "at the wall" = Ok (nofZ (F64 quick_libm) 1)).
Proof. exact C97_surfaces_refuted_proof. Qed.
Print Assumptions C97_surfaces_refuted.

Example C97_case :
  open_document (slab_env slab_ext slab_xml) "dir/slab.xml" = Ok slab_fixed /\ few slab_fixed
  /\ same_order in_a_row N.of_nat /\ ~ same_order in_a_row (exchanged 0 1).
Proof. exact C97_example. Qed.
Example C97_case_cells :
  let surfaces_of (w : world (F64 quick_libm)) :=
    map (fun c => map (fun x => su_name (fst x)) (c_senses c)) (w_cells w) in
  bind (world_create (moved repo_ext in_a_row in_a_row) (root doc_address_surfaces))
    (fun w => Ok (surfaces_of w)) = Ok [["left"; "ball"; "wall"]; ["left"]; ["left"; "ball"]]
  /\ bind (world_create (moved repo_ext (exchanged 1 2) in_a_row) (root doc_address_surfaces))
    (fun w => Ok (surfaces_of w)) = Ok [["left"; "wall"; "ball"]; ["left"]; ["left"; "ball"]].
Proof. exact C97_example_cells. Qed.
