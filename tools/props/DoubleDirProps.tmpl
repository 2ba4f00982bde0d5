(** Property C95: directions in double precision. *)
From Coq Require Import Bool String List Reals ZArith NArith SpecFloat.
From Verif Require Import Model.Num Model.Outcome Model.Rng Model.Xml Model.Point Model.Types
  Model.Particle Spec.DoubleSpec Spec.DoubleDirSpec Proofs.IdealLibm Proofs.DoubleDirs.
Import ListNotations.
Local Open Scope R_scope.

(** C95: a vector that is neither tiny nor huge is normalised to a unit vector that points the
    same way. *)
@@C95_normalised
(** A direction turned by a scattering cosine is a unit vector at that cosine to the old one. *)
@@C95_rotated
(** However many collisions follow each other, the length does not drift. *)
@@C95_any_number
(** The isotropic direction of a source is a direction to start from. *)
@@C95_isotropic
(** The cosine of a direction with itself can round to more than one, and a particle scattered
    by that cosine has no direction any more. *)
@@C95_nan_refuted

Example C95_case :
  bounded_turn ideal_libm (powerRZ 2 (-51)) /\ powerRZ 2 (-51) <= powerRZ 2 (-48) <= / 4
  /\ unit_up_to (3 * powerRZ 2 (-49)) (mkPoint (A := F64 ideal_libm) (f64_ofZ 1) (f64_ofZ 0) (f64_ofZ 0))
  /\ let half := SFdiv prec64 emax64 (f64_ofZ (-1)) (f64_ofZ 2) in
     is_double half /\ finite half /\ value half = - / 2.
Proof. exact C95_example. Qed.
