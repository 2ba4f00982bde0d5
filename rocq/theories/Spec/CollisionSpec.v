(** Collisions in a mixture of nuclides given by multigroup data. *)
From Coq Require Import List Reals NArith.
From Verif Require Import Model.Num Model.Outcome Model.Rng Model.Xml Model.Point Model.Types Model.Multigroup
  Model.Particle Model.Material Spec.MultigroupSpec Spec.MaterialSpec Spec.TransportSpec.
Import ListNotations.
Local Open Scope R_scope.

Section Collisions.
  Context (X : Ext XRa) (Gs : list N) (doc : nuclide XRa -> node) (m : material XRa).

  (** Every nuclide has an amount above zero and data for neutrons, read from its element
      [doc nu], which are sensible and nowhere zero. *)
  Definition mixture : Prop :=
    (exists d, m_density m = Fin d /\ 0 < d) /\ m_afracs m <> []
    /\ forall nu a, In (nu, a) (m_afracs m) ->
       (exists f, a = Fin f /\ 0 < f)
       /\ exists mg, data_for nu neutron (IMultigroup mg) /\ multigroup_create X (doc nu) = Ok mg
          /\ sensible_data X (doc nu) /\ groups (written_groups X (doc nu)) = Gs
          /\ forall g, In g Gs ->
             0 < sigma X (doc nu) Rcapture g + sigma X (doc nu) Rscatter g + sigma X (doc nu) Rfission g.

  (** A quantity of the elements, summed over the nuclides by their amounts. *)
  Definition mixed_sum (f : node -> R) : R := weighted (fun x => f (doc (fst x))) (m_afracs m).
  (** All reactions of a neutron of group [g]. *)
  Definition any_reaction (g : N) (n : node) : R :=
    sigma X n Rcapture g + sigma X n Rscatter g + sigma X n Rfission g.
  (** Scattering from group [g] to group [h]. *)
  Definition transfer (g h : N) (n : node) : R :=
    match scatter_node n with Some _ => weight X n (scatter_node n) h g | None => 0 end.
  (** Fission of which [j] neutrons come, where [nu] come on the average: [nu] is rounded up
      or down. *)
  Definition rounded (nu : R) (j : nat) : R := Rmax 0 (1 - Rabs (nu - INR j)).
  Definition multiplying (g : N) (j : nat) (n : node) : R :=
    sigma X n Rfission g * rounded (real_of (vector_entry X (nubar_node n) g)) j.
End Collisions.

(** What a collision ends with. *)
Definition comes_to {G : Rng XRa} (o : outcome (particle XRa G)) (test : particle XRa G -> bool) : bool :=
  match o with Ok q => test q | _ => false end.
Definition in_group {G : Rng XRa} (h : N) (q : particle XRa G) : bool :=
  match p_energy q with Group h' => N.eqb h' h | _ => false end.
Definition cosine_below {G : Rng XRa} (c : R) (q : particle XRa G) : bool :=
  match px (p_direction q) with Fin x => if Rlt_dec x c then true else false | _ => false end.
