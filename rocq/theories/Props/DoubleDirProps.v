(** Property C95: directions in double precision. *)
From Coq Require Import Bool String List Reals ZArith NArith SpecFloat.
From Verif Require Import Model.Num Model.Outcome Model.Rng Model.Xml Model.Point Model.Types
  Model.Particle Spec.DoubleSpec Spec.DoubleDirSpec Proofs.IdealLibm Proofs.DoubleDirs.
Import ListNotations.
Local Open Scope R_scope.

(** C95: a vector that is neither tiny nor huge is normalised to a unit vector that points the
    same way. *)
Theorem C95_normalised :
  forall (L : Libm) (p : point (F64 L)) (big : R),
  finite_point p ->
  powerRZ 2 (-400) <= big <= powerRZ 2 400 ->
  Rabs (value (px p)) <= big -> Rabs (value (py p)) <= big -> Rabs (value (pz p)) <= big ->
  (Rabs (value (px p)) = big \/ Rabs (value (py p)) = big \/ Rabs (value (pz p)) = big) ->
  let d := dir_of_point p in
  unit_up_to (powerRZ 2 (-50)) d
  /\ forall k, k = px \/ k = py \/ k = pz ->
     Rabs (value (k d) - value (k p) / sqrt (scalar p p)) <= powerRZ 2 (-51) * Rabs (value (k p) / sqrt (scalar p p)) + powerRZ 2 (-1021).
Proof. exact C95_normalised_proof. Qed.
Print Assumptions C95_normalised.
(** A direction turned by a scattering cosine is a unit vector at that cosine to the old one. *)
Theorem C95_rotated :
  forall (L : Libm) (delta : R) (d : point (F64 L)) (mu phi : spec_float),
  bounded_turn L delta -> delta <= / 4 ->
  unit_up_to (3 * powerRZ 2 (-49)) d ->
  is_double mu -> finite mu -> Rabs (value mu) <= 1 ->
  is_double phi -> finite phi ->
  let d' := dir_rotate d mu phi in
  unit_up_to (powerRZ 2 (-50)) d'
  /\ Rabs (scalar d' d - value mu) <= powerRZ 2 (-43) + 2 * delta.
Proof. exact C95_rotated_proof. Qed.
Print Assumptions C95_rotated.
(** However many collisions follow each other, the length does not drift. *)
Theorem C95_any_number :
  forall (L : Libm) (delta : R) (p : particle (F64 L) (Minstd (F64 L))) (turns : list (spec_float * energy (F64 L))),
  bounded_turn L delta -> delta <= / 4 ->
  unit_up_to (3 * powerRZ 2 (-49)) (p_direction p) ->
  (forall mu e, In (mu, e) turns -> is_double mu /\ finite mu /\ Rabs (value mu) <= 1) ->
  let p' := fold_left (fun q t => p_scatter (A := F64 L) q (fst t) (snd t)) turns p in
  unit_up_to (3 * powerRZ 2 (-49)) (p_direction p').
Proof. exact C95_any_number_proof. Qed.
Print Assumptions C95_any_number.
(** The isotropic direction of a source is a direction to start from. *)
Theorem C95_isotropic :
  forall (L : Libm) (delta : R) (s : rst (Minstd (F64 L))),
  bounded_turn L delta -> delta <= powerRZ 2 (-48) ->
  unit_up_to (3 * powerRZ 2 (-49)) (fst (dir_isotropic (Minstd (F64 L)) s)).
Proof. exact C95_isotropic_proof. Qed.
Print Assumptions C95_isotropic.
(** The cosine of a direction with itself can round to more than one, and a particle scattered
    by that cosine has no direction any more. *)
Theorem C95_nan_refuted :
  exists x : spec_float, forall L : Libm,
  let d := mkPoint (A := F64 L) x x x in
  d = dir_xyz (A := F64 L) (f64_ofZ 1) (f64_ofZ 1) (f64_ofZ 1)
  /\ unit_up_to (powerRZ 2 (-50)) d
  /\ forall (p : particle (F64 L) (Minstd (F64 L))) (e : energy (F64 L)), p_direction p = d ->
     p_direction (p_scatter p (pdot d d) e) = mkPoint (A := F64 L) S754_nan S754_nan S754_nan.
Proof. exact C95_nan_refuted_proof. Qed.
Print Assumptions C95_nan_refuted.

Example C95_case :
  bounded_turn ideal_libm (powerRZ 2 (-51)) /\ powerRZ 2 (-51) <= powerRZ 2 (-48) <= / 4
  /\ unit_up_to (3 * powerRZ 2 (-49)) (mkPoint (A := F64 ideal_libm) (f64_ofZ 1) (f64_ofZ 0) (f64_ofZ 0))
  /\ let half := SFdiv prec64 emax64 (f64_ofZ (-1)) (f64_ofZ 2) in
     is_double half /\ finite half /\ value half = - / 2.
Proof. exact C95_example. Qed.
