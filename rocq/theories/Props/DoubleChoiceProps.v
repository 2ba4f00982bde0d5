(** Property C91: choosing nuclides and continuous-energy reactions in double precision. *)
From Coq Require Import Bool String List Reals ZArith NArith SpecFloat.
From Verif Require Import Model.Num Model.Outcome Model.Rng Model.Xml Model.Std Model.Point
  Model.Types Model.Field Model.Particle Model.Multigroup Model.Continuous Model.Material
  Spec.SumSpec Spec.RngSpec Spec.DoubleSpec Spec.DoubleGroupSpec Spec.DoubleChoiceSpec
  Proofs.SampleDouble Proofs.SampleGroups Proofs.SampleChoice Proofs.DoubleChoice.
Import ListNotations.
Local Open Scope R_scope.

(** C91: with the program's generator and binary64 arithmetic, a collision in a mixture
    always finds a nuclide, never one whose share is zero, and a nuclide is hit for the random
    numbers of its exact share, up to one part in 2^34. *)
Theorem C91_nuclide : forall (L : Libm) (p : particle (F64 L) (Minstd (F64 L))) c m,
  p_cell p = Some c -> c_material c = Some m ->
  (N.of_nat (length (m_afracs m)) <= 65536)%N ->
  List.Forall (usable_entry p) (m_afracs m) ->
  let T := exact_rates p (m_afracs m) in
  let u := value (draw (Minstd (F64 L)) 0 (p_rng p)) in
  powerRZ 2 (-900) <= T ->
  exists before nu a after, m_afracs m = (before ++ (nu, a) :: after)%list
    /\ sample_nuclide p = Ok (nu, set_rng p (advance (Minstd (F64 L)) 1 (p_rng p)))
    /\ 0 < exact_rate p (nu, a)
    /\ exact_rates p before - slack * T <= u * T <= exact_rates p before + exact_rate p (nu, a) + slack * T.
Proof. exact C91_nuclide_proof. Qed.
Print Assumptions C91_nuclide.
(** A reaction given by energy happens for the random numbers of its share of the total; if
    the total looked up is larger than the sum of the reactions, the rest of the random
    numbers leads to another try with the next one. *)
Theorem C91_reaction : forall (L : Libm) (p : particle (F64 L) (Minstd (F64 L))) co total fuel,
  co_get_total co p = Ok total ->
  double_up_to (powerRZ 2 900) total -> powerRZ 2 (-900) <= value total ->
  (N.of_nat (length (co_reactions co)) <= 65536)%N ->
  List.Forall (fun r => returns_up_to (powerRZ 2 900) (cr_xs r p)) (co_reactions co) ->
  let T := value total in
  let S := exact_sum p (co_reactions co) in
  let u := value (draw (Minstd (F64 L)) 0 (p_rng p)) in
  let p1 := set_rng p (advance (Minstd (F64 L)) 1 (p_rng p)) in
  (exists before r after, co_reactions co = (before ++ r :: after)%list
     /\ co_interact (Datatypes.S fuel) co p = cr_interact fuel r p1
     /\ 0 < exact_xs p r
     /\ exact_sum p before - slack * S <= u * T <= exact_sum p before + exact_xs p r + slack * S)
  \/ (co_interact (Datatypes.S fuel) co p = co_interact fuel co p1 /\ S - slack * S <= u * T).
Proof. exact C91_reaction_proof. Qed.
Print Assumptions C91_reaction.
(** No further try is needed when the total is the sum of the reactions up to one part
    in 2^34. *)
Theorem C91_first_time : forall (L : Libm) (p : particle (F64 L) (Minstd (F64 L))) co total fuel,
  co_get_total co p = Ok total ->
  double_up_to (powerRZ 2 900) total -> powerRZ 2 (-900) <= value total ->
  (N.of_nat (length (co_reactions co)) <= 65536)%N ->
  List.Forall (fun r => returns_up_to (powerRZ 2 900) (cr_xs r p)) (co_reactions co) ->
  let S := exact_sum p (co_reactions co) in
  value total <= S + slack * S ->
  exists r, In r (co_reactions co) /\ 0 < exact_xs p r
    /\ co_interact (Datatypes.S fuel) co p
       = cr_interact fuel r (set_rng p (advance (Minstd (F64 L)) 1 (p_rng p))).
Proof. exact C91_first_time_proof. Qed.
Print Assumptions C91_first_time.
(** It is when the total is not looked up but added up. *)
Theorem C91_summed : forall (L : Libm) (p : particle (F64 L) (Minstd (F64 L))) co c modified,
  p_cell p = Some c -> any_modifies (co_reactions co) p = Ok modified ->
  modified = true \/ ev_is_valid (co_total co) (field_at (c_temperature c) (p_position p)) = false ->
  (N.of_nat (length (co_reactions co)) <= 65536)%N ->
  List.Forall (fun r => returns_up_to (powerRZ 2 900) (cr_xs r p)) (co_reactions co) ->
  let S := exact_sum p (co_reactions co) in
  exists total, co_get_total co p = Ok total /\ is_double total /\ finite total
    /\ S - slack * S <= value total <= S + slack * S.
Proof. exact C91_summed_proof. Qed.
Print Assumptions C91_summed.

(** Two nuclides, each with two reactions, and a table of totals that is larger than the sum
    of its reactions; at another temperature the totals are added up. *)
Example C91_case :
  (p_cell (probe 300) = Some (quarry 300) /\ c_material (quarry 300) = Some rock
   /\ (N.of_nat (length (m_afracs rock)) <= 65536)%N
   /\ List.Forall (usable_entry (probe 300)) (m_afracs rock)
   /\ powerRZ 2 (-900) <= exact_rates (probe 300) (m_afracs rock))
  /\ (exists total, co_get_total (ore_data 5 6) (probe 300) = Ok total
   /\ double_up_to (powerRZ 2 900) total
   /\ powerRZ 2 (-900) <= value total
   /\ (N.of_nat (length (co_reactions (ore_data 5 6))) <= 65536)%N
   /\ List.Forall (fun r => returns_up_to (powerRZ 2 900) (cr_xs r (probe 300))) (co_reactions (ore_data 5 6))
   /\ (let S := exact_sum (probe 300) (co_reactions (ore_data 5 6)) in S < value total <= S + slack * S))
  /\ (p_cell (probe 600) = Some (quarry 600)
   /\ any_modifies (co_reactions (ore_data 5 6)) (probe 600) = Ok false
   /\ ev_is_valid (co_total (ore_data 5 6))
        (field_at (c_temperature (quarry 600)) (p_position (probe 600))) = false
   /\ List.Forall (fun r => returns_up_to (powerRZ 2 900) (cr_xs r (probe 600))) (co_reactions (ore_data 5 6))).
Proof. exact (conj C91_nuclide_case (conj C91_reaction_case C91_summed_case)). Qed.
