(** A neutron in a medium that only absorbs. *)
From Coq Require Import Bool List Reals NArith.
From Verif Require Import Model.Num Model.Outcome Model.Rng Model.Xml Model.Point Model.Surface Model.Types
  Model.Field Model.Particle Model.Multigroup Model.Material Model.World Model.Perturbation Model.Transport
  Spec.Vec Spec.MultigroupSpec Spec.StepSpec.
Import ListNotations.
Local Open Scope R_scope.

(** In group [g] no nuclide of the material scatters or splits. *)
Definition absorbs (X : Ext XRa) (doc : nuclide XRa -> node) (m : material XRa) (g : N) : Prop :=
  forall nu a, In (nu, a) (m_afracs m) -> sigma X (doc nu) Rscatter g = 0 /\ sigma X (doc nu) Rfission g = 0.
(** The particle at [o], flying along [v], is in cell [c], and at distance [D] the void begins. *)
Definition meets_void (w : world XRa) (c : cell XRa) (o v : vec) (D : R) : Prop :=
  find_cell w (pt o) = Ok c /\ heads w c o v D
  /\ forall k c', nudge (A := XRa) = Fin k -> find_cell w (pt (along o v (D + k))) = Ok c' -> c_material c' = None.
(** The particle a transport ends with. *)
Definition last_state {E : Type} {G : Rng XRa} (o : outcome (E * particle XRa G)) : outcome (particle XRa G) :=
  bind o (fun r => Ok (snd r)).
