(** Property C94: table lookups in double precision. *)
From Coq Require Import Bool String List Reals ZArith NArith SpecFloat.
From Verif Require Import Model.Num Model.Outcome Model.Rng Model.Xml Model.Std Model.Types
  Model.Tables Spec.BinsSpec Spec.TablesSpec Spec.DoubleSpec Spec.DoublePlaneSpec
  Spec.DoubleTableSpec Proofs.DoubleTables.
Import ListNotations.
Local Open Scope R_scope.

(** C94: what a lookup in a table of doubles gives. *)
@@C94_lookup
(** The result may lie outside the two entries: above 7, just below 5.8, in a table with the
    entries 1 at 1.1 and 7 at 5.8. *)
@@C94_beyond_refuted
(** It may even be negative in a table without negative entries. *)
@@C94_negative_refuted
(** If the keys are too close the slope overflows, and the value at a key is lost. *)
@@C94_nan_refuted

Example C94_case : let l := [(f64_ofZ 1, f64_ofZ 10); (f64_ofZ 2, f64_ofZ 30); (f64_ofZ 4, f64_ofZ 20)] in
  sensible_table l /\ neighbours (numbers l) 2 30 4 20
  /\ forall L : Libm, cm1_at (A := F64 L) l (f64_ofZ 3) = Ok (f64_ofZ 25).
Proof. exact C94_example. Qed.
