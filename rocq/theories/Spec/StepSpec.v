(** Where a particle gets to. *)
From Coq Require Import Bool List Reals.
From Verif Require Import Model.Num Model.Outcome Model.Rng Model.Point Model.Surface Model.Types Model.Field Model.Particle
  Model.Material Model.World Model.Perturbation Model.Transport Spec.Vec.
Local Open Scope R_scope.

(** A particle at [o], flying along [v], meets the surface of its cell [c] at distance [D], and
    the program finds a cell behind it. *)
Record heads (w : world XRa) (c : cell XRa) (o v : vec) (D : R) : Prop := {
  hd_unit : unit v;
  hd_ahead : 0 < D /\ exists s, nearest_surface c (pt o) (pt v) = Ok (s, Fin D);
  hd_behind : exists k c', nudge (A := XRa) = Fin k /\ find_cell w (pt (along o v (D + k))) = Ok c'
}.
(** It is now less than [x] further along [v]. *)
Definition within {G : Rng XRa} (o v : vec) (x : R) (q : particle XRa G) : bool :=
  match px (p_position q), py (p_position q), pz (p_position q) with
  | Fin a, Fin b, Fin c => if Rlt_dec (dot (vsub (V3 a b c) o) v) x then true else false
  | _, _, _ => false
  end.
(** It has left its cell. *)
Definition crossed {G : Rng XRa} (q : particle XRa G) : bool :=
  event_eqb (p_event q) surface_cross || event_eqb (p_event q) leak.
