(** Vectors of doubles. *)
From Coq Require Import List Reals ZArith SpecFloat.
From Verif Require Import Model.Num Model.Point Spec.DoubleSpec Spec.DoublePlaneSpec.
Local Open Scope R_scope.

(** The scalar product of two vectors of doubles, without rounding. *)
Definition scalar {L : Libm} (p q : point (F64 L)) : R :=
  value (px p) * value (px q) + value (py p) * value (py q) + value (pz p) * value (pz q).
Definition finite_point {L : Libm} (p : point (F64 L)) : Prop :=
  (is_double (px p) /\ finite (px p)) /\ (is_double (py p) /\ finite (py p))
  /\ (is_double (pz p) /\ finite (pz p)).
(** A vector of doubles whose squared length differs from one by at most [e]. *)
Definition unit_up_to {L : Libm} (e : R) (p : point (F64 L)) : Prop :=
  finite_point p /\ Rabs (scalar p p - 1) <= e.
