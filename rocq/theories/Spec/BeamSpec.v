(** A beam through an absorber: a source that emits all particles from one point in one
    direction, in a cell of a material that only captures, with void behind the surface
    the beam meets. *)
From Coq Require Import List Reals ZArith NArith.
From Verif Require Import Model.Num Model.Outcome Model.Rng Model.Xml Model.Std Model.Point
  Model.Surface Model.Types Model.Bins Model.Field Model.Particle Model.Multigroup Model.Material Model.World
  Model.Perturbation Model.Estimator Model.Transport Model.Driver
  Spec.Vec Spec.CellSpec Spec.GeometrySpec Spec.RngSpec Spec.MultigroupSpec Spec.TransportSpec.
Import ListNotations.
Local Open Scope R_scope.

(** The nuclides only capture in group [g]; the sum of their capture cross sections,
    each times its fraction, is [x]. *)
Inductive absorption (X : Ext XRa) (Gs : list N) (g : N) : list (nuclide XRa * num XRa) -> R -> Prop :=
  | Absorb_none : absorption X Gs g [] 0
  | Absorb_one nu f n mg l x :
      data_for nu neutron (IMultigroup mg) -> multigroup_create X n = Ok mg ->
      sensible_data X n -> groups (written_groups X n) = Gs ->
      sigma X n Rscatter g = 0 -> sigma X n Rfission g = 0 ->
      absorption X Gs g l x ->
      absorption X Gs g ((nu, Fin f) :: l) (f * sigma X n Rcapture g + x).

Record beam (X : Ext XRa) (Gs : list N) (dr : @driver XRa) (o v : vec) (g : N) (s : surf XRa)
    (L rate : R) : Prop := mkBeam {
  bm_source : dr_source dr = mkSource (A := XRa) (pt o) (DirConstant (A := XRa) (pt v)) (Group g) neutron;
  bm_unit : unit v;
  bm_group : In g Gs;
  bm_data : multigroup_world X Gs (dr_world dr);
  bm_geometry : plain_geometry (dr_world dr);
  (* the source is in an absorber *)
  bm_absorber : exists c m d x, first_cell (dr_world dr) (pt o) c /\ c_material c = Some m
    /\ m_density m = Fin d /\ absorption X Gs g (m_afracs m) x /\ rate = d * x
    (* the beam meets the surface [s] of it first, at the distance [L] *)
    /\ surface_of c s /\ surf_distance s (pt o) (pt v) = Fin L /\ 0 < L
    /\ (forall s', surface_of c s' -> s' = s \/ before L (surf_distance s' (pt o) (pt v)));
  (* behind it is void *)
  bm_void : exists k c', nudge (A := XRa) = Fin k
    /\ first_cell (dr_world dr) (pt (along o v (L + k))) c' /\ c_material c' = None
}.

(** The first random number of a history takes it through the absorber; the tracking
    methods differ if the flight would end exactly on the surface. *)
Definition transmitted (t : tracking) (rate L u : R) : Prop :=
  match t with
  | SurfaceTracking => 1 - exp (- (rate * L)) <= u
  | CellDeltaTracking => 1 - exp (- (rate * L)) < u
  end.

(** The estimator counts the beam in bin [i]. *)
Definition sees_beam (v : vec) (g : N) (s : surf XRa) (e : estimator XRa) (i : nat) : Prop :=
  es_surface e = su_id s
  /\ pbins_index (sc_bins (es_scorable e)) (pt v) (Group g) = Ok (N.of_nat i).

(** A sensitivity as the code creates it for an estimator: of the same surface, with the
    same bins, and for one of the perturbations. *)
Definition own_sensitivity (perts : list (perturbation XRa)) (e : estimator XRa)
    (sn : sensitivity XRa) : Prop :=
  sn_surface sn = es_surface e /\ sc_bins (sn_scorable sn) = sc_bins (es_scorable e)
  /\ exists pert, In pert perts /\ pt_id pert = sn_pert sn.

(** An estimator that has, like its sensitivities, a bin for the beam if it is on its way. *)
Definition room (v : vec) (g : N) (s : surf XRa) (e : estimator XRa) (sc : scorable XRa) : Prop :=
  es_surface e = su_id s -> exists i, sees_beam v g s e i
    /\ (i < length (sc_scores sc))%nat /\ (i < length (sc_squares sc))%nat.
Definition ready (perts : list (perturbation XRa)) (v : vec) (g : N) (s : surf XRa)
    (e : estimator XRa) : Prop :=
  room v g s e (es_scorable e)
  /\ forall sn, In sn (es_sens e) -> own_sensitivity perts e sn /\ room v g s e (sn_scorable sn).
