(** Continuous-energy data and the quantities of free-gas scattering. *)
From Coq Require Import List Reals.
From Verif Require Import Model.Num Model.Outcome Model.Rng Model.Point Model.Types Model.Field
  Model.Tables Spec.BinsSpec Spec.TablesSpec Spec.MaterialSpec.
Import ListNotations.
Local Open Scope R_scope.

(** How far a requested temperature is from that of an evaluation. *)
Definition relative_difference (T T0 : R) : R := Rabs (T - T0) / T0.

(** The Boltzmann constant in the code's units. *)
Definition k_B : R := 8617333262145 / 10 ^ 23.

(** The ratio of the free-gas cross section to that of nuclei at rest, as a
    function of a = A E / (k T). *)
Definition free_gas_ratio (a : R) : R :=
  (1 + 1 / (2 * a)) * erf (sqrt a) + exp (- a) / sqrt (PI * a).

(** A tabulated cross section: a table of non-negative numbers with increasing
    energies, made at a non-negative temperature. *)
Record sound_evaluation (ev : evaluation XRa) : Prop := mkSoundEval {
  se_table : exists l, ev_xs ev = table l /\ l <> [] /\ increasing (map fst l)
                       /\ List.Forall (fun e => 0 <= snd e) l;
  se_temperature : exists T0, ev_temperature ev = Fin T0 /\ 0 <= T0
}.

(** Its value at energy [E]. *)
Definition tabulated (ev : evaluation XRa) (E : R) : R :=
  real_outcome (cm1_at (ev_xs ev) (Fin E)).

(** A particle of energy [E] where the temperature is [T], in a cell that declares
    the temperature to be at most [U]. *)
Record at_temperature {G : Rng XRa} (p : particle XRa G) (c : cell XRa) (E T U : R) : Prop :=
  mkAtTemp {
    at_energy : p_energy p = ContinuousE (A := XRa) (Fin E);
    at_cell : p_cell p = Some c;
    at_field : field_at (c_temperature c) (p_position p) = Fin T;
    at_upper : field_upper (c_temperature c) = Fin U;
    at_positive : 0 < E;
    at_bound : 0 <= T <= U
  }.

From Verif Require Import Model.Thermal Model.Continuous Spec.SumSpec.

(** A reaction whose data are sound for particle [p]: where thermal data apply,
    their cross section is a real number not above their majorant. *)
Definition sound_reaction {G : Rng XRa} (p : particle XRa G) (r : creaction XRa) : Prop :=
  sound_evaluation (cr_evaluation r) /\
  match r with
  | CScatter _ tsl awr =>
      (exists a, awr = Fin a /\ 0 < a)
      /\ match tsl with
         | None => True
         | Some t =>
             th_is_valid t p = Ok false
             \/ (th_is_valid t p = Ok true
                 /\ exists x m, th_get_total t p = Ok (Fin x)
                                /\ th_get_majorant t p = Ok (Fin m) /\ 0 <= x <= m)
         end
  | _ => True
  end.

(** The tabulated total does not exceed the sum of the tabulated reactions. *)
Definition total_within_sum (co : continuous XRa) (E : R) : Prop :=
  tabulated (co_total co) E
  <= Rsum (map (fun r => tabulated (cr_evaluation r) E) (co_reactions co)).

(** Cross section of a reaction for particle [p], and the sum over a list. *)
Definition reaction_xs {G : Rng XRa} (p : particle XRa G) (r : creaction XRa) : R :=
  real_outcome (cr_xs r p).
Definition sum_xs {G : Rng XRa} (p : particle XRa G) (rs : list (creaction XRa)) : R :=
  Rsum (map (reaction_xs p) rs).

(** Every reaction has a real non-negative cross section. *)
Definition plain_reactions {G : Rng XRa} (p : particle XRa G) (rs : list (creaction XRa)) : Prop :=
  List.Forall (fun r => cr_xs r p = Ok (Fin (reaction_xs p r)) /\ 0 <= reaction_xs p r) rs.
