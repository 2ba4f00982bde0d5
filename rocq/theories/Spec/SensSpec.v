(** How the part of a beam that comes through an absorber depends on its cross section. *)
From Coq Require Import List Reals ZArith NArith.
From Verif Require Import Model.Num Model.Types Model.Estimator.
Import ListNotations.
Local Open Scope R_scope.

(** An absorber of atom density [d] and thickness [L], whose total cross section per atom
    is raised from [x] by [e]. *)
Definition attenuation (d x L e : R) : R := exp (- (d * (x + e) * L)).

(** The printed mean of bin [i] is [mu] and the printed deviation [dev]. *)
Definition reported (sc : scorable XRa) (weight : xr) (i : nat) (mu dev : R) : Prop :=
  nth_error (sc_means sc weight) i = Some (Fin mu)
  /\ nth_error (sc_stddevs sc weight) i = Some (Fin dev).
