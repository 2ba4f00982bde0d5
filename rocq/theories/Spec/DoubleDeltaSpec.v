(** Delta tracking in binary64: totals and majorants, added without rounding. *)
From Coq Require Import Bool String List Reals ZArith NArith SpecFloat.
From Verif Require Import Model.Num Model.Outcome Model.Rng Model.Types Model.Particle
  Model.Continuous Model.Material Spec.SumSpec Spec.DoubleSpec Spec.DoubleChoiceSpec.
Import ListNotations.
Local Open Scope R_scope.

Section Delta.
  Context {L : Libm} {G : Rng (F64 L)} (p : particle (F64 L) G).

  (** Atom fraction times majorant, multiplied without rounding. *)
  Definition exact_bound (e : nuclide (F64 L) * num (F64 L)) : R :=
    value (snd e) * returned (nu_majorant (fst e) p).
  Definition exact_bounds (l : list (nuclide (F64 L) * num (F64 L))) : R := Rsum (map exact_bound l).

  (** Doubles that can be multiplied and added without overflow, with a majorant that is one. *)
  Definition bounded_entry (e : nuclide (F64 L) * num (F64 L)) : Prop :=
    double_up_to (powerRZ 2 400) (snd e)
    /\ returns_up_to (powerRZ 2 400) (nu_total (fst e) p)
    /\ returns_up_to (powerRZ 2 400) (nu_majorant (fst e) p)
    /\ returned (nu_total (fst e) p) <= returned (nu_majorant (fst e) p).
  (** The majorant of the nuclide is its total. *)
  Definition tight_entry (e : nuclide (F64 L) * num (F64 L)) : Prop :=
    nu_majorant (fst e) p = nu_total (fst e) p.
End Delta.
