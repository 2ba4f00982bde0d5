(** Materials as written in an input document, and the cross sections of their
    nuclides. *)
From Coq Require Import Bool String List Reals NArith.
From Verif Require Import Model.Num Model.Outcome Model.Rng Model.Xml Model.Types
  Model.Particle Model.Material Spec.SumSpec Spec.MultigroupSpec.
Import ListNotations.
Local Open Scope string_scope.

(** The element minimc/materials/* whose name attribute is [name]. *)
Definition material_element (root : node) (name : string) : node :=
  n_find_by_attr (n_child root "materials") "name" name.

(** The names and atom fractions its children give, in order. *)
Definition written_fractions (X : Ext XRa) (n : node) (l : list (string * R)) : Prop :=
  Forall2 (fun c w => n_attr c "name" = Some (fst w)
                      /\ as_double X (n_attr c "afrac") = Fin (snd w)) (n_children n) l.

Section Cross.
  Context {G : Rng XRa}.

  (** An outcome that is a real number. *)
  Definition real_outcome (o : outcome xr) : R :=
    match o with Ok (Fin r) => r | _ => 0%R end.

  (** Atom fraction of an entry; total cross section and majorant of its nuclide
      as seen by particle [p]. *)
  Definition fraction (x : nuclide XRa * num XRa) : R := real_of (snd x).
  Definition total_at (p : particle XRa G) (x : nuclide XRa * num XRa) : R :=
    real_outcome (nu_total (fst x) p).
  Definition majorant_at (p : particle XRa G) (x : nuclide XRa * num XRa) : R :=
    real_outcome (nu_majorant (fst x) p).

  (** Every nuclide has a real non-negative cross section and majorant here, and
      fractions are real and non-negative. *)
  Record plain (p : particle XRa G) (x : nuclide XRa * num XRa) : Prop := mkPlain {
    pl_fraction : snd x = Fin (fraction x);
    pl_total : nu_total (fst x) p = Ok (Fin (total_at p x));
    pl_majorant : nu_majorant (fst x) p = Ok (Fin (majorant_at p x));
    pl_nonneg : (0 <= fraction x /\ 0 <= total_at p x)%R
  }.

  (** Sum over the nuclides of fraction times cross section. *)
  Definition weighted (f : nuclide XRa * num XRa -> R) (l : list (nuclide XRa * num XRa)) : R :=
    Rsum (map (fun x => fraction x * f x)%R l).
End Cross.

(** Every nuclide of the material has multigroup data for this kind of particle. *)
Definition all_multigroup {A : Arith} (m : material A) (t : ptype) : Prop :=
  forall x, In x (m_afracs m) ->
  exists mg, find (fun y => ptype_eqb (fst y) t) (nu_xs (fst x)) = Some (t, IMultigroup mg).
