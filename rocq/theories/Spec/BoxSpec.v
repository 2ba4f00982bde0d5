(** Boxes in the unit cube. *)
From Coq Require Import List Reals.
Import ListNotations.
Local Open Scope R_scope.

(** Each number is in its interval. *)
Fixpoint in_box (bs : list (R * R)) (l : list R) : bool :=
  match bs, l with
  | [], _ => true
  | (a, b) :: bs', u :: l' => if Rlt_dec u a then false else if Rlt_dec u b then in_box bs' l' else false
  | _ :: _, [] => false
  end.
Fixpoint volume (bs : list (R * R)) : R :=
  match bs with [] => 1 | (a, b) :: bs' => (b - a) * volume bs' end.
