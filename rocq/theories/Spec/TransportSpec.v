(** Walks of a particle: the states it is in after each event. *)
From Coq Require Import Bool String List Reals ZArith NArith.
From Verif Require Import Model.Num Model.Outcome Model.Rng Model.Xml Model.Point Model.Surface
  Model.Types Model.Particle Model.Multigroup Model.Material Model.Perturbation Model.Transport
  Spec.Vec Spec.CellSpec
  Spec.GeometrySpec Spec.MultigroupSpec.
Import ListNotations.

Section Walk.
  Context {A : Arith} {G : Rng A}.
  Notation particle := (particle A G).
  Implicit Types p q : particle.

  (** The first declared cell containing a point. *)
  Definition first_cell (w : world A) (x : point A) (c : cell A) : Prop :=
    exists before after, w_cells w = (before ++ c :: after)%list
      /\ inside c x /\ forall c', In c' before -> ~ inside c' x.

  (** How a walk ends and how it goes on. *)
  Definition ended p : Prop := p_event p = capture \/ p_event p = fission \/ p_event p = leak.
  Definition goes_on p : Prop :=
    p_event p = scatter \/ p_event p = surface_cross \/ p_event p = virtual_collision.

  (** The recorded cell is void. *)
  Definition in_void p : Prop := exists c, p_cell p = Some c /\ c_material c = None.

  (** The material a particle is in. *)
  Definition in_material p (c : cell A) (m : material A) : Prop :=
    p_cell p = Some c /\ c_material c = Some m.

  (** The data of a nuclide for a kind of particle. *)
  Definition data_for (nu : nuclide A) (t : ptype) (i : interaction A) : Prop :=
    find (fun x => ptype_eqb (fst x) t) (nu_xs nu) = Some (t, i).
  Definition multigroup_for (nu : nuclide A) (t : ptype) : Prop :=
    exists mg, data_for nu t (IMultigroup mg).

  (** The particle moved in a straight line. *)
  Definition flew p q : Prop :=
    exists d, p_position q = padd (p_position p) (pscale (p_direction p) d).

  Definition same_flight p q : Prop :=
    p_direction q = p_direction p /\ p_energy q = p_energy p /\ p_type q = p_type p
    /\ p_secondaries q = p_secondaries p.

  (** What happens to a particle between two calls of Score. *)
  Inductive one_event (t : tracking) (w : world A) p q : Prop :=
    | Crossing c m s c' :
        in_material p c m -> flew p q -> same_flight p q ->
        surface_of c s -> p_surface q = Some (su_id s) ->
        first_cell w (p_position q) c' -> p_cell q = Some c' ->
        p_event q = (match c_material c' with Some _ => surface_cross | None => leak end) ->
        one_event t w p q
    | Collision c m :
        in_material p c m -> flew p q ->
        p_cell q = Some c -> p_surface q = p_surface p -> p_type q = p_type p ->
        (p_event q = capture \/ p_event q = scatter \/ p_event q = fission) ->
        one_event t w p q
    | Virtual c m :
        t = CellDeltaTracking -> in_material p c m -> flew p q -> same_flight p q ->
        p_cell q = Some c -> p_surface q = p_surface p -> p_event q = virtual_collision ->
        one_event t w p q
    (* rounding may leave a collision without a reaction *)
    | NoReaction c m nu a :
        in_material p c m -> In (nu, a) (m_afracs m) -> multigroup_for nu (p_type p) ->
        flew p q -> p_cell q = Some c -> p_surface q = p_surface p -> p_type q = p_type p ->
        p_event q = p_event p ->
        one_event t w p q.

  (** Each state follows from the one before. *)
  Fixpoint chain (R : particle -> particle -> Prop) p (l : list particle) : Prop :=
    match l with [] => True | q :: l' => R p q /\ chain R q l' end.

  (** No material of the world has multigroup data for this kind of particle. *)
  Definition no_multigroup (w : world A) (t : ptype) : Prop :=
    forall c m nu a, In c (w_cells w) -> c_material c = Some m -> In (nu, a) (m_afracs m) ->
    ~ multigroup_for nu t.
End Walk.

(** A world of multigroup data with the groups [Gs], all of it sensible. *)
Definition multigroup_material (X : Ext XRa) (Gs : list N) (m : material XRa) : Prop :=
  (exists d, m_density m = Fin d /\ 0 < d)%R /\ m_afracs m <> []
  /\ forall nu a, In (nu, a) (m_afracs m) ->
     (exists f, a = Fin f /\ 0 < f)%R
     /\ exists n mg, data_for nu neutron (IMultigroup mg) /\ multigroup_create X n = Ok mg
        /\ sensible_data X n /\ groups (written_groups X n) = Gs
        /\ forall g, In g Gs ->
           (0 < sigma X n Rcapture g + sigma X n Rscatter g + sigma X n Rfission g)%R.
Definition multigroup_world (X : Ext XRa) (Gs : list N) (w : world XRa) : Prop :=
  forall c m, In c (w_cells w) -> c_material c = Some m -> multigroup_material X Gs m.

(** A neutron with a group of the data, a real position and a unit direction. *)
Record group_neutron {G : Rng XRa} (Gs : list N) (p : particle XRa G) : Prop := mkGN {
  gn_type : p_type p = neutron;
  gn_group : exists g, p_energy p = Group g /\ In g Gs;
  gn_position : exists x, p_position p = pt x;
  gn_direction : exists u, p_direction p = pt u /\ unit u
}.

(** Surfaces have real data; a cell that is not void has a surface; every point is in
    some cell. *)
Record plain_geometry (w : world XRa) : Prop := mkPlainGeometry {
  pg_shapes : forall c s, In c (w_cells w) -> surface_of c s -> real_shape (s_shape (su_surface s));
  pg_bounded : forall c m, In c (w_cells w) -> c_material c = Some m -> c_senses c <> [];
  pg_covers : forall x : vec, exists c, In c (w_cells w) /\ inside c (pt x)
}.
Definition spheres_and_planes (w : world XRa) : Prop :=
  forall c s, In c (w_cells w) -> surface_of c s -> sphere_or_plane (s_shape (su_surface s)).

(** The particle is exactly on a surface of its cell. *)
Definition on_own_surface {G : Rng XRa} (p : particle XRa G) : Prop :=
  exists c s x, p_cell p = Some c /\ surface_of c s /\ p_position p = pt x
    /\ on_surface (s_shape (su_surface s)) x.

(** The particle is inside its cell. *)
Definition inside_own_cell {A : Arith} {G : Rng A} (p : particle A G) : Prop :=
  exists c, p_cell p = Some c /\ inside c (p_position p).

(** The states a history goes through from a particle [p] that has been put into its
    first cell: steps of transport, and secondaries put into theirs. *)
Inductive reachable {A : Arith} {G : Rng A} (t : tracking) (w : world A)
    (pts : list (perturbation A)) (p : particle A G) : particle A G -> Prop :=
  | Reach_start : reachable t w pts p p
  | Reach_step fuel x y : reachable t w pts p x -> is_alive x = true ->
      transport_step t fuel w x = Ok y -> reachable t w pts p y
  | Reach_child x s c : reachable t w pts p x -> In s (p_secondaries x) ->
      first_cell w (p_position s) c ->
      reachable t w pts p (set_cell (set_perturbations pts s) c).

(** No point is in two cells. *)
Definition disjoint_cells (w : world XRa) : Prop :=
  forall c c' (x : vec), In c (w_cells w) -> In c' (w_cells w) ->
  inside c (pt x) -> inside c' (pt x) -> c = c'.

(** The macroscopic cross section that governs flights in a material: the total with
    surface tracking, the majorant with delta tracking. *)
Definition flight_rate {A : Arith} {G : Rng A} (t : tracking) (m : material A)
    (p : particle A G) (rate : num A) : Prop :=
  exists x, (match t with SurfaceTracking => mat_total m p | CellDeltaTracking => mat_majorant m p end)
            = Ok x /\ rate = nmul A (m_density m) x.
