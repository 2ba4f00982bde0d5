(** Materials that absorb, and the surfaces of a world. *)
From Coq Require Import List Reals NArith.
From Verif Require Import Model.Num Model.Outcome Model.Xml Model.Surface Model.Types Model.Material Model.Multigroup
  Spec.Vec Spec.MultigroupSpec Spec.TransportSpec.
Import ListNotations.
Local Open Scope R_scope.

(** A material of multigroup data with the groups [Gs], all of it sensible, in which a
    collision absorbs a neutron, by capture or fission, with probability [b] at least. *)
Definition absorbing_material (X : Ext XRa) (Gs : list N) (b : R) (m : material XRa) : Prop :=
  (exists d, m_density m = Fin d /\ 0 < d) /\ m_afracs m <> []
  /\ forall nu a, In (nu, a) (m_afracs m) ->
     (exists f, a = Fin f /\ 0 < f)
     /\ exists n mg, data_for nu neutron (IMultigroup mg) /\ multigroup_create X n = Ok mg
        /\ sensible_data X n /\ groups (written_groups X n) = Gs
        /\ forall g, In g Gs ->
           let total := sigma X n Rcapture g + sigma X n Rscatter g + sigma X n Rfission g in
           0 < total /\ b * total <= sigma X n Rcapture g + sigma X n Rfission g.
Definition absorbing_world (X : Ext XRa) (Gs : list N) (b : R) (w : world XRa) : Prop :=
  forall c m, In c (w_cells w) -> c_material c = Some m -> absorbing_material X Gs b m.

(** The surfaces of all cells, as often as they are used. *)
Definition sides (w : world XRa) : list (surf XRa) :=
  flat_map (fun c => map fst (c_senses c)) (w_cells w).

(** Every cell that is not void lies within one of its own spheres. *)
Definition bounded_cells (w : world XRa) : Prop :=
  forall c m, In c (w_cells w) -> c_material c = Some m ->
  exists s centre r, In (s, true) (c_senses c) /\ s_shape (su_surface s) = Sphere (pt centre) (Fin r).

(** Multigroup data that never multiply neutrons. *)
Definition non_multiplying (X : Ext XRa) (Gs : list N) (w : world XRa) : Prop :=
  forall c m nu a, In c (w_cells w) -> c_material c = Some m -> In (nu, a) (m_afracs m) ->
  exists n mg, data_for nu neutron (IMultigroup mg) /\ multigroup_create X n = Ok mg
    /\ sensible_data X n /\ groups (written_groups X n) = Gs
    /\ forall g, In g Gs -> 0 < sigma X n Rcapture g + sigma X n Rscatter g
                           /\ sigma X n Rfission g = 0.
