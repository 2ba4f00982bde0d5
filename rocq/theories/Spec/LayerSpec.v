(** A flight through layers of absorbers into the void. *)
From Coq Require Import Bool List Reals NArith.
From Verif Require Import Model.Num Model.Outcome Model.Rng Model.Xml Model.Point Model.Surface Model.Types
  Model.Field Model.Particle Model.Multigroup Model.Material Model.World Model.Perturbation Model.Transport
  Spec.Vec Spec.MultigroupSpec Spec.CollisionSpec Spec.StepSpec Spec.AbsorbSpec.
Local Open Scope R_scope.

Section Layers.
  Context (X : Ext XRa) (Gs : list N) (doc : nuclide XRa -> node) (w : world XRa) (g : N) (v : vec).

  (** Cell [c] is filled with a mixture that only absorbs; it ends at distance [D] of [o] along
      [v], and just behind, at [o'], the program finds cell [c']. Its thickness in mean free
      paths is [x]. *)
  Definition layer (o : vec) (c : cell XRa) (x : R) (o' : vec) (c' : cell XRa) : Prop :=
    exists m d D k, c_material c = Some m /\ mixture X Gs doc m /\ absorbs X doc m g /\ m_density m = Fin d
      /\ unit v /\ 0 < D /\ (exists s, nearest_surface c (pt o) (pt v) = Ok (s, Fin D))
      /\ nudge (A := XRa) = Fin k /\ o' = along o v (D + k) /\ find_cell w (pt o') = Ok c'
      /\ x = d * mixed_sum doc m (fun n => sigma X n Rcapture g) * D.

  (** From [o] in cell [c] there are [n] layers up to the void, [x] mean free paths in all. *)
  Inductive layers : nat -> vec -> cell XRa -> R -> Prop :=
  | last_layer o c x o' c' : layer o c x o' c' -> c_material c' = None -> layers 1 o c x
  | next_layer n o c x o' c' y : layer o c x o' c' -> layers n o' c' y -> layers (S n) o c (x + y).
End Layers.
