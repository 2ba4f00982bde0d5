(** Choices between nuclides and between reactions in binary64, against exact shares. *)
From Coq Require Import Bool String List Reals ZArith NArith SpecFloat.
From Verif Require Import Model.Num Model.Outcome Model.Rng Model.Types Model.Particle
  Model.Continuous Model.Material Spec.SumSpec Spec.DoubleSpec.
Import ListNotations.
Local Open Scope R_scope.

(** A non-negative double, not larger than [most]. *)
Definition double_up_to (most : R) (x : spec_float) : Prop :=
  is_double x /\ finite x /\ 0 <= value x <= most.
(** What a lookup returned is one. *)
Definition returns_up_to (most : R) (o : outcome spec_float) : Prop :=
  exists x, o = Ok x /\ double_up_to most x.
(** The value returned; zero if there is none. *)
Definition returned (o : outcome spec_float) : R :=
  match o with Ok x => value x | _ => 0 end.

Section Choices.
  Context {L : Libm} {G : Rng (F64 L)} (p : particle (F64 L) G).

  (** Atom fraction times total cross section, multiplied without rounding. *)
  Definition exact_rate (e : nuclide (F64 L) * num (F64 L)) : R :=
    value (snd e) * returned (nu_total (fst e) p).
  Definition exact_rates (l : list (nuclide (F64 L) * num (F64 L))) : R := Rsum (map exact_rate l).

  (** Doubles that can be multiplied and added without overflow. *)
  Definition usable_entry (e : nuclide (F64 L) * num (F64 L)) : Prop :=
    double_up_to (powerRZ 2 400) (snd e) /\ returns_up_to (powerRZ 2 400) (nu_total (fst e) p).

  (** Cross sections of reactions, added without rounding. *)
  Definition exact_xs (r : creaction (F64 L)) : R := returned (cr_xs r p).
  Definition exact_sum (l : list (creaction (F64 L))) : R := Rsum (map exact_xs l).
End Choices.
