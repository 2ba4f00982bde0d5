(** An isotropic source in a plate. *)
From Coq Require Import Bool List Reals NArith.
From Verif Require Import Model.Num Model.Outcome Model.Xml Model.Point Model.Surface Model.Types Model.Field
  Model.Particle Model.Material Model.World Spec.Vec.
Import ListNotations.
Local Open Scope R_scope.

(** Cell [c] is what lies between the plane [before] at [a] and the plane [after] at [b], and the
    world on both sides of it is void. *)
Record plate (w : world XRa) (c : cell XRa) (before after : surf XRa) (a b : R) : Prop := {
  pl_cell : c_senses c = [(before, false); (after, true)];
  pl_ids : su_id before <> su_id after;
  pl_before : s_shape (su_surface before) = PlaneX (A := XRa) (Fin a);
  pl_after : s_shape (su_surface after) = PlaneX (A := XRa) (Fin b);
  pl_inside : forall x, a < vx x < b -> find_cell w (pt x) = Ok c;
  pl_outside : forall x, vx x < a \/ b < vx x -> exists c', find_cell w (pt x) = Ok c' /\ c_material c' = None
}.
