(** Property C99: sampling by rejection ends. *)
From Coq Require Import List Reals.
From Verif Require Import Model.Num Model.Outcome Model.Rng Model.Types Model.Field Model.Tables Model.Particle
  Model.Thermal Model.Continuous Model.Material Spec.Vec Spec.ContinuousSpec Spec.ChanceSpec
  Proofs.EndingProofs.
Import ListNotations.
Local Open Scope R_scope.

(** C99: the chance that no target velocity has been accepted after [k] rounds, each of
    six random numbers at most, is at most [(3/4)^k]. *)
@@C99_target
(** The chance that the collision of a neutron with a nuclide has not ended after [k] rounds
    of either loop. (Without a positive cross section it never ends: [C36_no_reaction].) *)
@@C99_collision

(** A nuclide whose table of totals, 5, exceeds the sum of its reactions, 4: one number in
    five is drawn again. *)
Example C99_case :
  p_energy gas_neutron = ContinuousE (A := XRa) (Fin 1) /\ p_cell gas_neutron = Some gas_cell
  /\ field_at (c_temperature gas_cell) (p_position gas_neutron) = Fin 300
  /\ (forall ev tsl awr, In (CScatter ev tsl awr) (co_reactions gas) -> exists a, awr = Fin a /\ 0 < a)
  /\ plain_reactions gas_neutron (co_reactions gas)
  /\ co_get_total gas gas_neutron = Ok (Fin 5)
  /\ sum_xs gas_neutron (co_reactions gas) = 4
  /\ Rmax (3 / 4) (1 - sum_xs gas_neutron (co_reactions gas) / (2 * 5)) = 3 / 4.
Proof. exact C99_example. Qed.
