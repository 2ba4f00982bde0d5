(** Tables of doubles. *)
From Coq Require Import List Reals ZArith SpecFloat.
From Verif Require Import Model.Num Spec.DoubleSpec Spec.DoublePlaneSpec Spec.BinsSpec Spec.TablesSpec.
Import ListNotations.
Local Open Scope R_scope.

(** The numbers in a table. *)
Definition numbers (l : list (spec_float * spec_float)) : list (R * R) :=
  map (fun e => (value (fst e), value (snd e))) l.

(** A table of doubles with increasing keys at least 2^-400 apart; keys and values are at most
    2^400 in size. *)
Definition sensible_table (l : list (spec_float * spec_float)) : Prop :=
  l <> []
  /\ (forall k v, In (k, v) l -> ordinary (powerRZ 2 400) k /\ ordinary (powerRZ 2 400) v)
  /\ increasing (map fst (numbers l))
  /\ (forall k0 v0 k1 v1, neighbours (numbers l) k0 v0 k1 v1 -> powerRZ 2 (-400) <= k1 - k0).
