(** Property C92: crossing planes in double precision. *)
From Coq Require Import Bool String List Reals ZArith NArith SpecFloat.
From Verif Require Import Model.Num Model.Outcome Model.Rng Model.Xml Model.Point Model.Surface
  Model.Field Model.Schema Spec.DoubleSpec Spec.DoublePlaneSpec
  Proofs.SampleDocuments Proofs.RepoTests Proofs.PlaneRuns Proofs.DoublePlanes.
Import ListNotations.
Local Open Scope string_scope.
Local Open Scope R_scope.

(** C92: a particle that flies to a plane and a little further has left the side it was on,
    in binary64, if the plane is not too far in the x direction. Flying up: *)
@@C92_up_partial
(** Flying down, the plane must not be too far from zero either, because a particle at the
    plane counts as above it. *)
@@C92_down_partial
(** A particle that is still on the old side meets the plane again. *)
@@C92_again
(** One that flies down and comes to rest at the plane itself has not left the old side and
    never meets the plane again. *)
@@C92_lost_refuted
(** Planes at 0, 20 and 30, source at 24, flying down through a material that is as good as
    void (tools/docs/plane_missed.xml): every neutron is counted at 20, none at 0. *)
@@C92_missed_refuted
(** Planes at 0, 100 and 200, source at 3, flying up at 45 degrees
    (tools/docs/plane_twice.xml): every neutron is counted twice at 100. *)
@@C92_twice_refuted

Example C92_case (L : Libm) :
  let at_x z := mkPoint (A := F64 L) (f64_ofZ z) (f64_ofZ 0) (f64_ofZ 0) in
  ordinary (powerRZ 2 400) (f64_ofZ 1) /\ ordinary_point (powerRZ 2 400) (at_x 3%Z)
  /\ ordinary_point (powerRZ 2 400) (at_x (-2)%Z)
  /\ ordinary_point 1 (at_x 1%Z) /\ ordinary_point 1 (at_x (-1)%Z)
  (* down from 3 to 1, and up from -2 to 1 *)
  /\ 4 * (value (px (at_x 3%Z)) - value (f64_ofZ 1)) + Rabs (value (f64_ofZ 1)) <= 19 * - value (px (at_x (-1)%Z))
  /\ 4 * (value (f64_ofZ 1) - value (px (at_x (-2)%Z))) <= 19 * value (px (at_x 1%Z))
  /\ powerRZ 2 (-500) <= value (px (at_x 1%Z)) /\ powerRZ 2 (-900) <= value (px (at_x 1%Z)).
Proof. exact (C92_example L). Qed.
