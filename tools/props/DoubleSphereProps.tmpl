(** Property C93: crossing spheres in double precision. *)
From Coq Require Import Bool String List Reals ZArith NArith SpecFloat.
From Verif Require Import Model.Num Model.Outcome Model.Rng Model.Xml Model.Point Model.Surface
  Model.Field Model.Schema Spec.DoubleSpec Spec.DoublePlaneSpec
  Proofs.SampleDocuments Proofs.RepoTests Proofs.PlaneRuns Proofs.DoubleSpheres.
Import ListNotations.
Local Open Scope string_scope.
Local Open Scope R_scope.

(** C93: a particle that starts at the centre of a small sphere and flies to the sphere and a
    little further is outside it, in binary64. *)
@@C93_centre_partial
(** A particle that comes to rest at the sphere itself, flying inwards, is not inside it, and
    the next point at which it is said to meet the sphere is the far side. *)
@@C93_touching_refuted
(** A black sphere of radius 20 within a sphere of radius 100, source at 24 flying to the
    centre (tools/docs/sphere_through.xml): every neutron is counted twice at the black sphere
    and leaks. With radii 1 and 5 and the source at 5/4 none does. *)
@@C93_through_refuted
(** A thin ball of radius 40 and a source at its centre (tools/docs/sphere_twice.xml): every
    neutron is counted twice as it leaves. *)
@@C93_twice_refuted

Example C93_case (L : Libm) :
  let w := mkPoint (A := F64 L) (f64_ofZ 1) (f64_ofZ 0) (f64_ofZ 0) in
  ordinary_point 1 w
  /\ powerRZ 2 (-300) <= value (f64_ofZ 1) <= 5 / 4
  /\ 1 - powerRZ 2 (-50) <= value (px w) * value (px w) + value (py w) * value (py w) + value (pz w) * value (pz w)
  (* at 20 on a sphere of radius 20, flying to its centre *)
  /\ (let o := mkPoint (A := F64 L) (f64_ofZ 20) (f64_ofZ 0) (f64_ofZ 0) in
      let back := mkPoint (A := F64 L) (f64_ofZ (-1)) (f64_ofZ 0) (f64_ofZ 0) in
      let O := mkPoint (A := F64 L) (f64_ofZ 0) (f64_ofZ 0) (f64_ofZ 0) in
      let oc := psub o O in
      pdot oc oc = nmul (F64 L) (f64_ofZ 20) (f64_ofZ 20) /\ pdot oc back = f64_ofZ (-20)).
Proof. exact (C93_example L). Qed.
