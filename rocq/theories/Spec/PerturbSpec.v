(** The probability density of the flights of a walk, as a function of a change of
    the total cross section of the materials that contain a nuclide. *)
From Coq Require Import Bool List Reals NArith.
From Verif Require Import Model.Num Model.Outcome Model.Rng Model.Point Model.Types Model.Particle
  Model.Material Model.Perturbation Model.Transport Spec.Vec Spec.SumSpec.
Import ListNotations.
Local Open Scope R_scope.

(** A flight of length [fl_length] in a material of atom density [fl_atoms] and total
    cross section [fl_total] per atom, ended by a collision or by a surface.
    [fl_touched]: the material contains the nuclide. *)
Record flight : Type := mkFlight {
  fl_atoms : R;
  fl_total : R;
  fl_length : R;
  fl_collided : bool;
  fl_touched : bool
}.

(** The total cross section per unit length when that of the nuclide's materials is
    raised by [e] per atom; the density of a collision at a distance, or the
    probability of reaching the surface. *)
Definition macroscopic (f : flight) (e : R) : R :=
  fl_atoms f * (if fl_touched f then fl_total f + e else fl_total f).
Definition flight_density (f : flight) (e : R) : R :=
  (if fl_collided f then macroscopic f e else 1) * exp (- macroscopic f e * fl_length f).
(** The log density of all flights. *)
Definition log_density (fs : list flight) (e : R) : R :=
  Rsum (map (fun f => ln (flight_density f e)) fs).

Section Flights.
  Context {G : Rng XRa}.
  Notation particle := (particle XRa G).

  Definition contains_nuclide (m : material XRa) (nu : nuclide XRa) : Prop :=
    exists x, In x (m_afracs m) /\ nu_id (fst x) = nu_id nu.

  (** [f] is the flight between two events of a particle. Delta tracking flies with the
      majorant: it has to be the total. *)
  Record flown (t : tracking) (nu : nuclide XRa) (p q : particle) (f : flight) : Prop := mkFlown {
    fn_material : exists c m, p_cell p = Some c /\ c_material c = Some m
                    /\ m_density m = Fin (fl_atoms f) /\ mat_total m p = Ok (Fin (fl_total f))
                    /\ (t = CellDeltaTracking -> mat_majorant m p = Ok (Fin (fl_total f)))
                    /\ (fl_touched f = true <-> contains_nuclide m nu);
    fn_positive : 0 < fl_atoms f /\ 0 < fl_total f;
    fn_length : exists o u, p_position p = pt o /\ p_direction p = pt u /\ unit u
                  /\ p_position q = pt (along o u (fl_length f));
    fn_end : fl_collided f = true <->
             p_event q = capture \/ p_event q = scatter \/ p_event q = fission
  }.

  (** The flights of a walk. *)
  Inductive flights (t : tracking) (nu : nuclide XRa) : particle -> list particle -> list flight -> Prop :=
    | Flights_end p : flights t nu p [] []
    | Flights_next p q visited f fs :
        flown t nu p q f -> flights t nu q visited fs -> flights t nu p (q :: visited) (f :: fs).
End Flights.
