(** Transport of one particle: src/TransportMethod.cpp. *)
From Coq Require Import Bool String List ZArith NArith.
From Verif Require Import Model.Num Model.Outcome Model.Rng Model.Xml Model.Std Model.Point
  Model.Surface Model.Types Model.Bins Model.Field Model.Tables Model.Particle
  Model.Multigroup Model.Continuous Model.Material Model.World Model.Perturbation
  Model.Estimator.
Import ListNotations.
Local Open Scope string_scope.
Local Open Scope bool_scope.
Local Open Scope num_scope.
Local Open Scope outcome_scope.

(** TransportMethod::Create, TransportMethod.cpp:23-46. An unknown tracking type
    leaves a null pointer. *)
Definition tracking_create {A : Arith} (root : node) (w : world A) : outcome tracking :=
  let ty := n_text (n_child (n_child root "general") "tracking") in
  if String.eqb ty "" || String.eqb ty "surface" then
    if has_constant_temperature w then Ok SurfaceTracking
    else Throw "Surface tracking with continuous global temperature not allowed"
  else if String.eqb ty "cell delta" then Ok CellDeltaTracking
  else UB.

Section Transport.
  Context {A : Arith} {G : Rng A}.
  Notation particle := (particle A G).

  (** Sampling the distance to collision, TransportMethod.cpp:57-59 and 93-95 *)
  Definition sample_distance (t : tracking) (p : particle) : outcome (num A * particle) :=
    let! m := get_material p in
    let! d := collision_density t p in
    let (x, s) := exponential G (m_density m * d) (p_rng p) in
    Ok (x, set_rng p s).

  (** The surface-crossing branch, TransportMethod.cpp:68-72 and 100-104 *)
  Definition cross_surface (t : tracking) (w : world A) (s : surf A) (dist : num A)
      (p : particle) : outcome particle :=
    let! p1 := stream t p (dist + nudge) in
    let! c := find_cell w (p_position p1) in
    let p2 := set_surface (set_cell p1 c) (Some (su_id s)) in
    Ok (set_event p2 (match c_material c with Some _ => surface_cross | None => leak end)).

  (** The collision branch, TransportMethod.cpp:63-65 and 110-112 *)
  Definition collide (fuel : nat) (t : tracking) (dist : num A) (p : particle)
      : outcome particle :=
    let! p1 := stream t p dist in
    let! np := sample_nuclide p1 in
    let (nu, p2) := (np : nuclide A * particle) in
    nu_interact fuel nu p2.

  (** One turn of the loop of SurfaceTracking::Transport up to the call to Score,
      TransportMethod.cpp:57-73 *)
  Definition surface_step (fuel : nat) (w : world A) (p : particle) : outcome particle :=
    let! dp := sample_distance SurfaceTracking p in
    let (d_coll, p1) := (dp : num A * particle) in
    let! c := get_cell p1 in
    let! nd := nearest_surface c (p_position p1) (p_direction p1) in
    let (s, d_surf) := (nd : surf A * num A) in
    if d_coll <? d_surf then collide fuel SurfaceTracking d_coll p1
    else cross_surface SurfaceTracking w s d_surf p1.

  (** One turn of the loop of CellDeltaTracking::Transport,
      TransportMethod.cpp:93-118 *)
  Definition delta_step (fuel : nat) (w : world A) (p : particle) : outcome particle :=
    let! dp := sample_distance CellDeltaTracking p in
    let (d_coll, p1) := (dp : num A * particle) in
    let! c := get_cell p1 in
    let! nd := nearest_surface c (p_position p1) (p_direction p1) in
    let (s, d_surf) := (nd : surf A * num A) in
    if d_surf <? d_coll then cross_surface CellDeltaTracking w s d_surf p1
    else
      let! m := get_material p1 in
      let! total := mat_total m p1 in
      let! majorant := mat_majorant m p1 in
      let (real, s') := bernoulli G (total / majorant) (p_rng p1) in
      let p2 := set_rng p1 s' in
      if real then collide fuel CellDeltaTracking d_coll p2
      else
        let! p3 := stream CellDeltaTracking p2 d_coll in
        Ok (set_event p3 virtual_collision).

  Definition transport_step (t : tracking) (fuel : nat) (w : world A) (p : particle)
      : outcome particle :=
    match t with
    | SurfaceTracking => surface_step fuel w p
    | CellDeltaTracking => delta_step fuel w p
    end.

  (** The [while (p.IsAlive())] loop; [e.Score(p)] ends each turn
      (TransportMethod.cpp:56-75, 92-120). The scoring object [E] is abstract:
      the code's is EstimatorSetProxy. *)
  Fixpoint transport_loop {E : Type} (score : E -> particle -> outcome E) (t : tracking)
      (fuel : nat) (w : world A) (e : E) (p : particle) : outcome (E * particle) :=
    if is_alive p then
      match fuel with
      | O => OutOfFuel
      | S fuel' =>
          let! p1 := transport_step t fuel' w p in
          let! e1 := score e p1 in
          transport_loop score t fuel' w e1 p1
      end
    else Ok (e, p).

  (** Transport, TransportMethod.cpp:52-77 and 88-122 and Particle.cpp:42-44:
      noexcept. The Bank it returns is always empty and is dropped. *)
  Definition transport {E : Type} (score : E -> particle -> outcome E) (t : tracking)
      (fuel : nat) (w : world A) (e : E) (p : particle) : outcome (E * particle) :=
    noexcept
      (let! c := find_cell w (p_position p) in
       transport_loop score t fuel w e (set_cell p c)).
End Transport.
