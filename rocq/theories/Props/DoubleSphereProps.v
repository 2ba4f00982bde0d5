(** Property C93: crossing spheres in double precision. *)
From Coq Require Import Bool String List Reals ZArith NArith SpecFloat.
From Verif Require Import Model.Num Model.Outcome Model.Rng Model.Xml Model.Point Model.Surface
  Model.Field Model.Schema Spec.DoubleSpec Spec.DoublePlaneSpec
  Proofs.SampleDocuments Proofs.RepoTests Proofs.PlaneRuns Proofs.DoubleSpheres.
Import ListNotations.
Local Open Scope string_scope.
Local Open Scope R_scope.

(** C93: a particle that starts at the centre of a small sphere and flies to the sphere and a
    little further is outside it, in binary64. *)
Theorem C93_centre_partial : forall (L : Libm) (radius : spec_float) (w : point (F64 L)),
  let O := mkPoint (A := F64 L) (f64_ofZ 0) (f64_ofZ 0) (f64_ofZ 0) in
  is_double radius -> finite radius -> powerRZ 2 (-300) <= value radius <= 5 / 4 ->
  ordinary_point 1 w ->
  1 - powerRZ 2 (-50) <= value (px w) * value (px w) + value (py w) * value (py w) + value (pz w) * value (pz w) ->
  let sphere := Sphere (A := F64 L) O radius in
  let after := padd O (pscale w (nadd (F64 L) (distance sphere O w) nudge)) in
  contains sphere O = true /\ contains sphere after = false.
Proof. exact C93_centre_partial_proof. Qed.
Print Assumptions C93_centre_partial.
(** A particle that comes to rest at the sphere itself, flying inwards, is not inside it, and
    the next point at which it is said to meet the sphere is the far side. *)
Theorem C93_touching_refuted :
  forall (L : Libm) (center : point (F64 L)) (radius : spec_float) (o w : point (F64 L)),
  let oc := psub o center in
  (* as far from the centre as the radius, and flying inwards *)
  let square := nmul (F64 L) radius radius in
  is_double square -> finite square -> pdot oc oc = square ->
  let inwards := pdot oc w in
  is_double inwards -> finite inwards -> powerRZ 2 (-190) <= - value inwards <= powerRZ 2 190 ->
  let sphere := Sphere (A := F64 L) center radius in
  let chord := 2 * - value inwards in
  contains sphere o = false
  /\ is_double (distance sphere o w) /\ finite (distance sphere o w)
  /\ Rabs (value (distance sphere o w) - chord) <= powerRZ 2 (-50) * chord.
Proof. exact C93_touching_refuted_proof. Qed.
Print Assumptions C93_touching_refuted.
(** A black sphere of radius 20 within a sphere of radius 100, source at 24 flying to the
    centre (tools/docs/sphere_through.xml): every neutron is counted twice at the black sphere
    and leaks. With radii 1 and 5 and the source at 5/4 none does. *)
Theorem C93_through_refuted :
  valid_document repo_lexical doc_sphere_through = true
  /\ reported repo_ext (root doc_sphere_through) 4 "into the core" = Ok (nofZ Q64 2)
  /\ reported repo_ext (root doc_sphere_through) 4 "leakage" = Ok (nofZ Q64 1)
  (* the same problem made smaller *)
  /\ valid_document repo_lexical doc_sphere_small = true
  /\ reported repo_ext (root doc_sphere_small) 4 "into the core" = Ok (nofZ Q64 1)
  /\ reported repo_ext (root doc_sphere_small) 4 "leakage" = Ok (nofZ Q64 0).
Proof. exact C93_through_refuted_proof. Qed.
Print Assumptions C93_through_refuted.
(** A thin ball of radius 40 and a source at its centre (tools/docs/sphere_twice.xml): every
    neutron is counted twice as it leaves. *)
Theorem C93_twice_refuted :
  valid_document repo_lexical doc_sphere_twice = true
  /\ reported repo_ext (root doc_sphere_twice) 4 "leakage" = Ok (nofZ Q64 2).
Proof. exact C93_twice_refuted_proof. Qed.
Print Assumptions C93_twice_refuted.

Example C93_case (L : Libm) :
  let w := mkPoint (A := F64 L) (f64_ofZ 1) (f64_ofZ 0) (f64_ofZ 0) in
  ordinary_point 1 w
  /\ powerRZ 2 (-300) <= value (f64_ofZ 1) <= 5 / 4
  /\ 1 - powerRZ 2 (-50) <= value (px w) * value (px w) + value (py w) * value (py w) + value (pz w) * value (pz w)
  (* at 20 on a sphere of radius 20, flying to its centre *)
  /\ (let o := mkPoint (A := F64 L) (f64_ofZ 20) (f64_ofZ 0) (f64_ofZ 0) in
      let back := mkPoint (A := F64 L) (f64_ofZ (-1)) (f64_ofZ 0) (f64_ofZ 0) in
      let O := mkPoint (A := F64 L) (f64_ofZ 0) (f64_ofZ 0) (f64_ofZ 0) in
      let oc := psub o O in
      pdot oc oc = nmul (F64 L) (f64_ofZ 20) (f64_ofZ 20) /\ pdot oc back = f64_ofZ (-20)).
Proof. exact (C93_example L). Qed.
