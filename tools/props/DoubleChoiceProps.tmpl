(** Property C91: choosing nuclides and continuous-energy reactions in double precision. *)
From Coq Require Import Bool String List Reals ZArith NArith SpecFloat.
From Verif Require Import Model.Num Model.Outcome Model.Rng Model.Xml Model.Std Model.Point
  Model.Types Model.Field Model.Particle Model.Multigroup Model.Continuous Model.Material
  Spec.SumSpec Spec.RngSpec Spec.DoubleSpec Spec.DoubleGroupSpec Spec.DoubleChoiceSpec
  Proofs.SampleDouble Proofs.SampleGroups Proofs.SampleChoice Proofs.DoubleChoice.
Import ListNotations.
Local Open Scope R_scope.

(** C91: with the program's generator and binary64 arithmetic, a collision in a mixture
    always finds a nuclide, never one whose share is zero, and a nuclide is hit for the random
    numbers of its exact share, up to one part in 2^34. *)
@@C91_nuclide
(** A reaction given by energy happens for the random numbers of its share of the total; if
    the total looked up is larger than the sum of the reactions, the rest of the random
    numbers leads to another try with the next one. *)
@@C91_reaction
(** No further try is needed when the total is the sum of the reactions up to one part
    in 2^34. *)
@@C91_first_time
(** It is when the total is not looked up but added up. *)
@@C91_summed

(** Two nuclides, each with two reactions, and a table of totals that is larger than the sum
    of its reactions; at another temperature the totals are added up. *)
Example C91_case :
  (p_cell (probe 300) = Some (quarry 300) /\ c_material (quarry 300) = Some rock
   /\ (N.of_nat (length (m_afracs rock)) <= 65536)%N
   /\ List.Forall (usable_entry (probe 300)) (m_afracs rock)
   /\ powerRZ 2 (-900) <= exact_rates (probe 300) (m_afracs rock))
  /\ (exists total, co_get_total (ore_data 5 6) (probe 300) = Ok total
   /\ double_up_to (powerRZ 2 900) total
   /\ powerRZ 2 (-900) <= value total
   /\ (N.of_nat (length (co_reactions (ore_data 5 6))) <= 65536)%N
   /\ List.Forall (fun r => returns_up_to (powerRZ 2 900) (cr_xs r (probe 300))) (co_reactions (ore_data 5 6))
   /\ (let S := exact_sum (probe 300) (co_reactions (ore_data 5 6)) in S < value total <= S + slack * S))
  /\ (p_cell (probe 600) = Some (quarry 600)
   /\ any_modifies (co_reactions (ore_data 5 6)) (probe 600) = Ok false
   /\ ev_is_valid (co_total (ore_data 5 6))
        (field_at (c_temperature (quarry 600)) (p_position (probe 600))) = false
   /\ List.Forall (fun r => returns_up_to (powerRZ 2 900) (cr_xs r (probe 600))) (co_reactions (ore_data 5 6))).
Proof. exact (conj C91_nuclide_case (conj C91_reaction_case C91_summed_case)). Qed.
