(** How likely a particle is to reach the surface ahead without a collision, when its
    random numbers are independent and uniform. *)
From Coq Require Import List Reals.
From Verif Require Import Model.Num Model.Outcome Model.Rng Model.Point Model.Surface Model.Types
  Model.Field Model.Particle Model.Material Model.World Model.Perturbation Model.Transport Spec.Vec
  Spec.ChanceSpec.
Import ListNotations.
Local Open Scope R_scope.

(** In at most [k] steps the particle crosses a surface, and until then it collides only
    virtually. *)
Fixpoint passes (t : tracking) (fuel : nat) (w : world XRa) (k : nat) (p : particle XRa Given)
    : bool :=
  match k with
  | O => false
  | S k' =>
      match transport_step t fuel w p with
      | Ok q => match p_event q with
                | virtual_collision => passes t fuel w k' q
                | surface_cross | leak => true
                | _ => false
                end
      | _ => false
      end
  end.

(** [q] is where [p] is after the distance [x], with the same energy and direction. *)
Record after (p : particle XRa Given) (o v : vec) (x : R) (q : particle XRa Given) : Prop := {
  af_position : p_position q = pt (along o v x);
  af_direction : p_direction q = pt v;
  af_energy : p_energy q = p_energy p;
  af_type : p_type q = p_type p;
  af_cell : p_cell q = p_cell p
}.

(** A flight in one cell: a surface at distance [D], density [d], total cross section
    [sigma x] after the distance [x], and a majorant [M] of it. *)
Record flight (w : world XRa) (p : particle XRa Given) (o v : vec) (c : cell XRa)
    (m : material XRa) (D d M : R) (sigma : R -> R) : Prop := {
  fl_start : after p o v 0 p;
  fl_cell : p_cell p = Some c;
  fl_material : c_material c = Some m;
  fl_density : m_density m = Fin d /\ 0 < d;
  fl_ahead : forall x, 0 <= x < D ->
    exists s, nearest_surface c (pt (along o v x)) (pt v) = Ok (s, Fin (D - x));
  fl_behind : exists k c', nudge (A := XRa) = Fin k
    /\ find_cell w (pt (along o v (D + k))) = Ok c';
  fl_total : forall x q, 0 <= x < D -> after p o v x q ->
    mat_total m q = Ok (Fin (sigma x)) /\ mat_majorant m q = Ok (Fin M);
  fl_majorant : forall x, 0 <= x < D -> 0 <= sigma x <= M;
  fl_positive : 0 < M /\ 0 < D;
  (* the nuclides have continuous-energy data *)
  fl_data : forall y q, In y (m_afracs m) -> p_type q = p_type p ->
    exists co, nu_at (fst y) (q : particle XRa Given) = Ok (IContinuous co)
}.
