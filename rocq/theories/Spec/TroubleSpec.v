(** What can stop a run, for data of both kinds and for any arithmetic. *)
From Coq Require Import Bool List Reals ZArith NArith SpecFloat.
From Verif Require Import Model.Num Model.Outcome Model.Rng Model.Point Model.Surface Model.Types
  Model.Field Model.Tables Model.Particle Model.Multigroup Model.Thermal Model.Continuous
  Model.Material Model.World Model.Perturbation Model.Estimator Model.Bins Model.Transport
  Model.Driver Spec.CellSpec Spec.TransportSpec Spec.DoubleSpec.
Import ListNotations.

(** The data are given for the groups 1 to [n], or by energy. *)
Inductive kind : Type := Groups (n : N) | Pointwise.

Section Trouble.
  Context {A : Arith} {G : Rng A}.
  Notation particle := (particle A G).
  Implicit Types p x : particle.

  Definition energy_of (k : kind) (e : energy A) : Prop :=
    match k, e with
    | Groups n, Group g => (1 <= g <= n)%N
    | Pointwise, ContinuousE _ => True
    | _, _ => False
    end.

  (** Tables with an entry for every group; a reaction comes with all of its tables. *)
  Definition full {V : Type} (n : N) (l : list V) : Prop := N.of_nat (length l) = n.
  Record group_tables (n : N) (mg : multigroup A) : Prop := mkGroupTables {
    gt_groups : mg_max_group mg = n /\ (n < 2 ^ 64)%N;
    gt_total : full n (mg_total mg);
    gt_reactions : forall r xs, In (r, xs) (mg_reactions mg) -> full n xs;
    gt_scatter : forall xs, In (Rscatter, xs) (mg_reactions mg) ->
      exists probs, mg_scatter_probs mg = Some probs /\ full n probs /\ List.Forall (full n) probs;
    gt_fission : forall xs, In (Rfission, xs) (mg_reactions mg) ->
      exists nubar chi, mg_nubar mg = Some nubar /\ full n nubar
        /\ mg_chi mg = Some chi /\ full n chi /\ List.Forall (full n) chi
  }.

  (** Tables with at least one point; no thermal scattering data. *)
  Definition point_reaction (r : creaction A) : Prop :=
    ev_xs (cr_evaluation r) <> [] /\
    match r with
    | CCapture _ => True
    | CScatter _ tsl _ => tsl = None
    | CFission _ nubar => exists tbl, nubar = Some tbl /\ tbl <> []
    end.
  Definition point_tables (co : continuous A) : Prop :=
    ev_xs (co_total co) <> [] /\ List.Forall point_reaction (co_reactions co).

  Definition data_of (k : kind) (i : interaction A) : Prop :=
    match k, i with
    | Groups n, IMultigroup mg => group_tables n mg
    | Pointwise, IContinuous co => point_tables co
    | _, _ => False
    end.
  (** Every nuclide of a material has data for neutrons, and a cell that is not void has
      a surface. *)
  Definition tabulated_world (k : kind) (w : world A) : Prop :=
    forall c m, In c (w_cells w) -> c_material c = Some m ->
    c_senses c <> []
    /\ forall nu a, In (nu, a) (m_afracs m) -> exists i, data_for nu neutron i /\ data_of k i.

  (** ** Particles of a history *)
  Section History.
    Variables (dr : driver (A := A)) (p : particle).
    Notation w := (dr_world dr).

    (** A state a particle of the history is in while it is followed. *)
    Definition under_way x : Prop :=
      exists c, first_cell w (p_position p) c
        /\ reachable (dr_tracking dr) w (dr_perts dr) (set_cell (set_perturbations (dr_perts dr) p) c) x.
    (** The source particle and the secondaries. *)
    Definition begins x : Prop :=
      x = p \/ exists y, under_way y /\ In x (p_secondaries y).
    Definition nowhere (y : point A) : Prop := forall c, In c (w_cells w) -> ~ inside c y.

    (** The geometry has a hole where a particle begins or arrives, or is void where it
        begins. *)
    Inductive astray : Prop :=
      | Begins_nowhere x : begins x -> nowhere (p_position x) -> astray
      | Begins_in_void x c : begins x -> first_cell w (p_position x) c -> c_material c = None -> astray
      | Arrives_nowhere x c s d :
          under_way x -> is_alive x = true -> p_cell x = Some c ->
          nearest_surface c (p_position x) (p_direction x) = Ok (s, d) ->
          nowhere (padd (p_position x) (pscale (p_direction x) (nadd A d nudge))) -> astray.

    (** The neutrons per fission of a nuclide at the energy of a particle. *)
    Definition nubar_of (nu : nuclide A) x (v : num A) : Prop :=
      exists i, data_for nu neutron i /\
      match i with
      | IMultigroup mg => exists l g, mg_nubar mg = Some l /\ p_energy x = Group g
          /\ nth_error l (N.to_nat (g - 1)) = Some v
      | IContinuous co => exists ev tbl E, In (CFission ev (Some tbl)) (co_reactions co)
          /\ p_energy x = ContinuousE E /\ cm1_at tbl E = Ok v
      end.

    (** The data have no proper number where a particle collides: for the total cross
        section of the material, or for the neutrons of a fission. *)
    Inductive no_number (usable countable : num A -> Prop) : Prop :=
      | No_total x c m d x' v :
          under_way x -> is_alive x = true -> in_material x c m ->
          sample_distance (dr_tracking dr) x = Ok (d, x') ->
          mat_total m (set_position x (padd (p_position x) (pscale (p_direction x) d))) = Ok v ->
          ~ usable v -> no_number usable countable
      | No_yield x c m nu a v :
          under_way x -> is_alive x = true -> in_material x c m -> In (nu, a) (m_afracs m) ->
          nubar_of nu x v -> ~ countable v -> no_number usable countable.

    (** An estimator, or a sensitivity of it, that has no bin for a particle. *)
    Definition has_bin (sc : scorable A) x : Prop :=
      exists i, pbins_index (sc_bins sc) (p_direction x) (p_energy x) = Ok i
        /\ (i < N.of_nat (length (sc_scores sc)))%N /\ (i < N.of_nat (length (sc_squares sc)))%N.
    Inductive no_bin : Prop :=
      | No_bin_estimator x e :
          under_way x -> In e (ss_estimators (dr_init dr)) -> ~ has_bin (es_scorable e) x -> no_bin
      | No_bin_sensitivity x e sn :
          under_way x -> In e (ss_estimators (dr_init dr)) -> In sn (es_sens e) ->
          ~ has_bin (sn_scorable sn) x -> no_bin.
  End History.

  (** ** Problems *)
  (** The source emits neutrons for which there are data; the sensitivities are to
      perturbations of the problem. *)
  Record tabulated (k : kind) (dr : driver (A := A)) : Prop := mkTabulated {
    tab_world : tabulated_world k (dr_world dr);
    tab_type : so_type (dr_source dr) = neutron;
    tab_energy : energy_of k (so_energy (dr_source dr));
    tab_sens : forall e sn, In e (ss_estimators (dr_init dr)) -> In sn (es_sens e) ->
      exists pert, In pert (dr_perts dr) /\ pt_id pert = sn_pert sn
  }.
End Trouble.

(** Doubles that serve as a total cross section and as a number of neutrons. *)
Definition usable_double (x : spec_float) : Prop :=
  is_double x /\ finite x /\ (powerRZ 2 (-1000) <= value x)%R.
Definition countable_double (x : spec_float) : Prop :=
  is_double x /\ finite x /\ (0 <= value x <= powerRZ 2 53)%R.

(** Their counterparts in exact arithmetic. *)
Definition usable_real (x : num XRa) : Prop := exists r, x = Fin r /\ (0 < r)%R.
Definition countable_real (x : num XRa) : Prop := exists r, x = Fin r /\ (0 <= r <= powerRZ 2 53)%R.

(** A worker that was stopped. *)
Definition stopped {A : Arith} (sv : solver (A := A)) (o : outcome (estimator_set A)) : Prop :=
  In (Failed o) (sv_workers sv).
