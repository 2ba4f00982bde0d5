(** Points and directions whose coordinates are ordinary doubles. *)
From Coq Require Import Bool String List Reals ZArith NArith SpecFloat.
From Verif Require Import Model.Num Model.Outcome Model.Rng Model.Xml Model.Point Model.Estimator
  Model.Driver Spec.DoubleSpec.
Import ListNotations.
Local Open Scope R_scope.

(** A double that is a number, not larger than [most] in size. *)
Definition ordinary (most : R) (x : spec_float) : Prop :=
  is_double x /\ finite x /\ Rabs (value x) <= most.
Definition ordinary_point {L : Libm} (most : R) (p : point (F64 L)) : Prop :=
  ordinary most (px p) /\ ordinary most (py p) /\ ordinary most (pz p).

(** The mean reported by a fixed-source run on one thread, for an estimator without bins;
    enough turns are given for every history. *)
Definition reported {L : Libm} (X : Ext (F64 L)) (root : node) (histories : nat) (estimator : string)
    : outcome (num (F64 L)) :=
  bind (fixed_source_create X root) (fun dr =>
  bind (solver_result dr (run_schedule (G := Minstd (F64 L)) dr 50 (solver_start dr 0)
                            (repeat O (4 * histories)))) (fun ss =>
  bind (find_estimator ss estimator) (fun e =>
  sc_get_score (es_scorable e) 0 (nofZ (F64 L) (Z.of_nat histories))))).
