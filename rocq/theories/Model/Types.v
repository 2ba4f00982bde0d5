(** Data types of the model, mirroring the data members of the classes. *)
From Coq Require Import Bool String List ZArith NArith.
From Verif Require Import Model.Num Model.Outcome Model.Rng Model.Point Model.Surface.
Import ListNotations.

(** src/BasicTypes.hpp: Energy = std::variant<ContinuousEnergy, Group> *)
Inductive energy (A : Arith) : Type :=
  | ContinuousE (e : num A)
  | Group (g : N).
Arguments ContinuousE {A} e.
Arguments Group {A} g.

(** src/Particle.hpp:30-43, src/Reaction.hpp:9-13 *)
Inductive ptype : Type := neutron | photon.
Inductive event : Type :=
  birth | scatter | capture | fission | surface_cross | leak | virtual_collision.
Inductive reaction : Type := Rcapture | Rscatter | Rfission.

Definition ptype_eqb (a b : ptype) : bool :=
  match a, b with neutron, neutron | photon, photon => true | _, _ => false end.
Definition event_eqb (a b : event) : bool :=
  match a, b with
  | birth, birth | scatter, scatter | capture, capture | fission, fission
  | surface_cross, surface_cross | leak, leak
  | virtual_collision, virtual_collision => true
  | _, _ => false
  end.

Section Types.
  Context (A : Arith).
  Notation Real := (num A).

  (** src/ScalarField.hpp. [upper] and [lower] are the declared bounds. *)
  Inductive field : Type :=
    | ConstantField (upper lower c : Real)
    | LinearField (upper lower : Real) (g : point A) (b : Real).

  (** src/HDF5DataSet.hpp:169-173. The dimension is the number of axes. *)
  Record dataset : Type := mkDataset {
    ds_axes : list (list Real);
    ds_values : list Real;
    ds_strides : list N
  }.

  (** src/ContinuousMap.hpp: a map with [d] levels of nesting; level 0 is a Real.
      Entries are in key order. *)
  Fixpoint cmap (d : nat) : Type :=
    match d with O => Real | S d' => list (Real * cmap d') end.

  (** src/ContinuousEvaluation.hpp:11-24 *)
  Record evaluation : Type := mkEval { ev_xs : cmap 1; ev_temperature : Real }.

  (** src/Multigroup.hpp: members. Reactions are in enumeration order, as in
      [std::map<Reaction, OneDimensional>]. *)
  Record multigroup : Type := mkMultigroup {
    mg_nubar : option (list Real);
    mg_chi : option (list (list Real));
    mg_scatter_probs : option (list (list Real));
    mg_reactions : list (reaction * list Real);
    mg_total : list Real;
    mg_max_group : N
  }.

  (** src/ThermalScattering.hpp:54-86. The two partition classes have the same
      shape: [pa_grid] is E_T_modes or beta_T_modes. *)
  Record partition : Type := mkPartition {
    pa_cdf : dataset;
    pa_singular : dataset;
    pa_grid : dataset
  }.

  (** src/ThermalScattering.hpp:96-127 *)
  Record thermal : Type := mkThermal {
    th_majorant : cmap 1;
    th_xs_T : dataset;
    th_xs_S : dataset;
    th_xs_E : dataset;
    th_beta_partitions : list partition;
    th_Es : list Real;
    th_beta_ends : list N;
    th_alpha_partitions : list partition;
    th_betas : list Real;
    th_alpha_ends : list N;
    th_beta_cutoff : Real;
    th_alpha_cutoff : Real;
    th_awr : Real;
    th_cutoff_energy : Real
  }.

  (** src/ContinuousReaction.hpp: the concrete reaction classes. *)
  Inductive creaction : Type :=
    | CCapture (ev : evaluation)
    | CScatter (ev : evaluation) (tsl : option thermal) (awr : Real)
    | CFission (ev : evaluation) (nubar : option (cmap 1)).

  (** src/Continuous.hpp:44-46 *)
  Record continuous : Type := mkContinuous {
    co_reactions : list creaction;
    co_total : evaluation
  }.

  (** src/Interaction.hpp *)
  Inductive interaction : Type :=
    | IMultigroup (m : multigroup)
    | IContinuous (c : continuous).

  (** src/Nuclide.hpp. Pointers to shared immutable objects are modelled by the
      object together with an identity [.._id]: its position in the vector of the
      World that owns it. Pointer comparison is comparison of identities. *)
  Record nuclide : Type := mkNuclide {
    nu_id : nat;
    nu_name : string;
    nu_xs : list (ptype * interaction)
  }.

  (** src/Material.hpp. [m_afracs] is a [std::map] keyed by pointer, in the order of
      addresses. *)
  Record material : Type := mkMaterial {
    m_name : string;
    m_afracs : list (nuclide * Real);
    m_density : Real
  }.

  (** A surface with its identity. *)
  Record surf : Type := mkSurf { su_id : nat; su_surface : surface A }.

  (** src/Cell.hpp:58-68. [c_senses] is a [std::map] keyed by pointer, in the
      order of addresses. *)
  Record cell : Type := mkCell {
    c_id : nat;
    c_name : string;
    c_senses : list (surf * bool);
    c_material : option material;
    c_temperature : field
  }.

  (** src/World.hpp *)
  Record world : Type := mkWorld {
    w_surfaces : list surf;
    w_nuclides : list nuclide;
    w_materials : list material;
    w_temperature : field;
    w_cells : list cell
  }.

  (** src/Perturbation.hpp: the only concrete class,
      TotalCrossSectionPerturbation. *)
  Record perturbation : Type := mkPert {
    pt_id : nat;
    pt_name : string;
    pt_nuclide : nuclide
  }.

  (** src/Particle.hpp:104-131. [p_cell] is a pointer to an immutable cell, null
      before the first SetCell; [p_surface] is the identity of the surface crossed
      most recently. *)
  Inductive particle (G : Rng A) : Type := mkParticle {
    p_indirect : list (perturbation * Real);
    p_secondaries : list (particle G);
    p_position : point A;
    p_direction : point A;
    p_energy : energy A;
    p_cell : option cell;
    p_rng : rst G;
    p_type : ptype;
    p_event : event;
    p_surface : option nat
  }.
End Types.

Arguments ConstantField {A} upper lower c.
Arguments LinearField {A} upper lower g b.
Arguments mkDataset {A}. Arguments ds_axes {A}. Arguments ds_values {A}.
Arguments ds_strides {A}.
Arguments mkEval {A}. Arguments ev_xs {A}. Arguments ev_temperature {A}.
Arguments mkMultigroup {A}. Arguments mg_nubar {A}. Arguments mg_chi {A}.
Arguments mg_scatter_probs {A}. Arguments mg_reactions {A}. Arguments mg_total {A}.
Arguments mg_max_group {A}.
Arguments mkPartition {A}. Arguments pa_cdf {A}. Arguments pa_singular {A}.
Arguments pa_grid {A}.
Arguments mkThermal {A}.
Arguments th_majorant {A}. Arguments th_xs_T {A}. Arguments th_xs_S {A}.
Arguments th_xs_E {A}. Arguments th_beta_partitions {A}. Arguments th_Es {A}.
Arguments th_beta_ends {A}. Arguments th_alpha_partitions {A}. Arguments th_betas {A}.
Arguments th_alpha_ends {A}. Arguments th_beta_cutoff {A}. Arguments th_alpha_cutoff {A}.
Arguments th_awr {A}. Arguments th_cutoff_energy {A}.
Arguments CCapture {A}. Arguments CScatter {A}. Arguments CFission {A}.
Arguments mkContinuous {A}. Arguments co_reactions {A}. Arguments co_total {A}.
Arguments IMultigroup {A}. Arguments IContinuous {A}.
Arguments mkNuclide {A}. Arguments nu_id {A}. Arguments nu_name {A}. Arguments nu_xs {A}.
Arguments mkMaterial {A}. Arguments m_name {A}. Arguments m_afracs {A}.
Arguments m_density {A}.
Arguments mkSurf {A}. Arguments su_id {A}. Arguments su_surface {A}.
Arguments mkCell {A}. Arguments c_id {A}. Arguments c_name {A}. Arguments c_senses {A}.
Arguments c_material {A}. Arguments c_temperature {A}.
Arguments mkWorld {A}. Arguments w_surfaces {A}. Arguments w_nuclides {A}.
Arguments w_materials {A}. Arguments w_temperature {A}. Arguments w_cells {A}.
Arguments mkPert {A}. Arguments pt_id {A}. Arguments pt_name {A}. Arguments pt_nuclide {A}.
Arguments mkParticle {A G}.
Arguments p_indirect {A G}. Arguments p_secondaries {A G}. Arguments p_position {A G}.
Arguments p_direction {A G}. Arguments p_energy {A G}. Arguments p_cell {A G}.
Arguments p_rng {A G}. Arguments p_type {A G}. Arguments p_event {A G}.
Arguments p_surface {A G}.
