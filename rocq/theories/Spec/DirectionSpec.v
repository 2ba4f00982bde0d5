(** Directions made by the program, as real vectors. *)
From Coq Require Import Reals.
From Verif Require Import Model.Num Model.Point Model.Rng Spec.Vec.
Local Open Scope R_scope.

(** A point of the model that is a real unit vector. *)
Definition unit_point (p : point XRa) : Prop := exists v, p = pt v /\ unit v.
