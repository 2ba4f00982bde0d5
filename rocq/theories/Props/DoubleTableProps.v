(** Property C94: table lookups in double precision. *)
From Coq Require Import Bool String List Reals ZArith NArith SpecFloat.
From Verif Require Import Model.Num Model.Outcome Model.Rng Model.Xml Model.Std Model.Types
  Model.Tables Spec.BinsSpec Spec.TablesSpec Spec.DoubleSpec Spec.DoublePlaneSpec
  Spec.DoubleTableSpec Proofs.DoubleTables.
Import ListNotations.
Local Open Scope R_scope.

(** C94: what a lookup in a table of doubles gives. *)
Theorem C94_lookup : forall (L : Libm) (l : list (spec_float * spec_float)) (first final : spec_float * spec_float),
  sensible_table l -> hd_error l = Some first -> hd_error (rev l) = Some final ->
  forall k, is_double k -> finite k ->
  exists r, cm1_at (A := F64 L) l k = Ok r /\ is_double r /\ finite r
    (* outside the table, the nearest entry *)
    /\ (value k < value (fst first) -> r = snd first)
    /\ (value (fst final) <= value k -> r = snd final)
    (* at a key, its value *)
    /\ (forall v, In (value k, v) (numbers l) -> value r = v)
    (* between two keys, the straight line up to rounding *)
    /\ (forall k0 v0 k1 v1, neighbours (numbers l) k0 v0 k1 v1 -> k0 <= value k <= k1 ->
          Rabs (value r - chord k0 v0 k1 v1 (value k))
          <= powerRZ 2 (-49) * Rmax (Rabs v0) (Rabs v1) + powerRZ 2 (-600)).
Proof. exact C94_lookup_proof. Qed.
Print Assumptions C94_lookup.
(** The result may lie outside the two entries: above 7, just below 5.8, in a table with the
    entries 1 at 1.1 and 7 at 5.8. *)
Theorem C94_beyond_refuted :
  let tenths z := SFdiv prec64 emax64 (f64_ofZ z) (f64_ofZ 10) in
  exists k r, is_double k /\ finite k /\ value (tenths 11%Z) < value k < value (tenths 58%Z)
    /\ is_double r /\ finite r /\ value (f64_ofZ 7) < value r
    /\ forall L : Libm,
       cm1_at (A := F64 L) [(tenths 11%Z, f64_ofZ 1); (tenths 58%Z, f64_ofZ 7)] k = Ok r.
Proof. exact C94_beyond_refuted_proof. Qed.
Print Assumptions C94_beyond_refuted.
(** It may even be negative in a table without negative entries. *)
Theorem C94_negative_refuted :
  let half z := SFdiv prec64 emax64 (f64_ofZ z) (f64_ofZ 2) in
  let l := [(SFdiv prec64 emax64 (f64_ofZ 1) (f64_ofZ 4), f64_ofZ 7);
            (half 7508503957693039%Z, f64_ofZ 0)] in
  sensible_table l
  /\ exists r, is_double r /\ finite r /\ value r < 0
    /\ forall L : Libm, cm1_at (A := F64 L) l (half 7508503957693038%Z) = Ok r.
Proof. exact C94_negative_refuted_proof. Qed.
Print Assumptions C94_negative_refuted.
(** If the keys are too close the slope overflows, and the value at a key is lost. *)
Theorem C94_nan_refuted :
  let least := S754_finite false 1 (-1074) in
  is_double least /\ finite least /\ value (f64_ofZ 0) < value least
  /\ forall L : Libm,
     cm1_at (A := F64 L) [(f64_ofZ 0, f64_ofZ 0); (least, f64_ofZ 4)] (f64_ofZ 0) = Ok S754_nan.
Proof. exact C94_nan_refuted_proof. Qed.
Print Assumptions C94_nan_refuted.

Example C94_case : let l := [(f64_ofZ 1, f64_ofZ 10); (f64_ofZ 2, f64_ofZ 30); (f64_ofZ 4, f64_ofZ 20)] in
  sensible_table l /\ neighbours (numbers l) 2 30 4 20
  /\ forall L : Libm, cm1_at (A := F64 L) l (f64_ofZ 3) = Ok (f64_ofZ 25).
Proof. exact C94_example. Qed.
