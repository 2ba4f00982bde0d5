(** Runs in binary64 through planes and spheres: the documents of tools/docs. *)
From Coq Require Import Bool String List ZArith NArith SpecFloat.
From Verif Require Import Model.Num Model.Outcome Model.Rng Model.Xml Model.Std Model.Point
  Model.Surface Model.Types Model.Bins Model.Field Model.Particle Model.Material Model.World
  Model.Estimator Model.Transport Model.Driver Model.Schema Spec.TextExt Spec.DoublePlaneSpec
  Proofs.SampleDocuments Proofs.RepoTests.
Import ListNotations.
Local Open Scope string_scope.
Local Open Scope bool_scope.

Notation Q64 := (F64 quick_libm).

Lemma C92_missed_refuted_proof :
  valid_document repo_lexical doc_plane_missed = true
  /\ reported repo_ext (root doc_plane_missed) 4 "at the middle plane" = Ok (nofZ Q64 1)
  /\ reported repo_ext (root doc_plane_missed) 4 "at the left plane" = Ok (nofZ Q64 0)
  (* the same problem made smaller *)
  /\ valid_document repo_lexical doc_plane_small = true
  /\ reported repo_ext (root doc_plane_small) 4 "at the middle plane" = Ok (nofZ Q64 1)
  /\ reported repo_ext (root doc_plane_small) 4 "at the left plane" = Ok (nofZ Q64 1).
Proof.
  split; [vm_compute; reflexivity|].
  split; [match goal with |- _ = ?r => vm_cast_no_check (eq_refl r) end|].
  split; [match goal with |- _ = ?r => vm_cast_no_check (eq_refl r) end|].
  split; [vm_compute; reflexivity|].
  split; match goal with |- _ = ?r => vm_cast_no_check (eq_refl r) end.
Qed.

Lemma C92_twice_refuted_proof :
  valid_document repo_lexical doc_plane_twice = true
  /\ reported repo_ext (root doc_plane_twice) 4 "at the middle plane" = Ok (nofZ Q64 2)
  /\ reported repo_ext (root doc_plane_twice) 4 "at the right plane" = Ok (nofZ Q64 1).
Proof.
  split; [vm_compute; reflexivity|].
  split; match goal with |- _ = ?r => vm_cast_no_check (eq_refl r) end.
Qed.

Lemma C93_through_refuted_proof :
  valid_document repo_lexical doc_sphere_through = true
  /\ reported repo_ext (root doc_sphere_through) 4 "into the core" = Ok (nofZ Q64 2)
  /\ reported repo_ext (root doc_sphere_through) 4 "leakage" = Ok (nofZ Q64 1)
  (* the same problem made smaller *)
  /\ valid_document repo_lexical doc_sphere_small = true
  /\ reported repo_ext (root doc_sphere_small) 4 "into the core" = Ok (nofZ Q64 1)
  /\ reported repo_ext (root doc_sphere_small) 4 "leakage" = Ok (nofZ Q64 0).
Proof.
  split; [vm_compute; reflexivity|].
  split; [match goal with |- _ = ?r => vm_cast_no_check (eq_refl r) end|].
  split; [match goal with |- _ = ?r => vm_cast_no_check (eq_refl r) end|].
  split; [vm_compute; reflexivity|].
  split; match goal with |- _ = ?r => vm_cast_no_check (eq_refl r) end.
Qed.

Lemma C93_twice_refuted_proof :
  valid_document repo_lexical doc_sphere_twice = true
  /\ reported repo_ext (root doc_sphere_twice) 4 "leakage" = Ok (nofZ Q64 2).
Proof.
  split; [vm_compute; reflexivity|].
  match goal with |- _ = ?r => vm_cast_no_check (eq_refl r) end.
Qed.
