(** Property C96: accepting collisions of cell delta tracking in double precision. *)
From Coq Require Import Bool String List Reals ZArith NArith SpecFloat.
From Verif Require Import Model.Num Model.Outcome Model.Rng Model.Xml Model.Point Model.Surface Model.Types
  Model.Field Model.Particle Model.Continuous Model.Material Model.World Model.Perturbation Model.Transport
  Spec.SumSpec Spec.RngSpec Spec.TransportSpec Spec.DoubleSpec Spec.DoubleGroupSpec
  Spec.DoubleChoiceSpec Spec.DoubleDeltaSpec
  Proofs.SampleDouble Proofs.SampleChoice Proofs.SampleDelta Proofs.DoubleDelta.
Import ListNotations.
Local Open Scope R_scope.

(** C96: the total and the majorant of a mixture are doubles, the majorant is not the smaller
    one whatever the roundings, and their quotient is a probability that differs from the exact
    quotient by at most one part in 2^34. *)
Theorem C96_probability :
  forall (L : Libm) (p : particle (F64 L) (Minstd (F64 L))) m,
  (N.of_nat (length (m_afracs m)) <= 65536)%N ->
  List.Forall (bounded_entry p) (m_afracs m) ->
  let T := exact_rates p (m_afracs m) in
  let M := exact_bounds p (m_afracs m) in
  powerRZ 2 (-900) <= M ->
  exists total majorant : spec_float, mat_total m p = Ok total /\ mat_majorant m p = Ok majorant
    /\ is_double total /\ finite total /\ is_double majorant /\ finite majorant
    /\ 0 <= value total <= value majorant /\ 0 < value majorant
    /\ let q := SFdiv prec64 emax64 total majorant in
       is_double q /\ finite q /\ 0 <= value q <= 1 /\ Rabs (value q - T / M) <= slack.
Proof. exact C96_probability_proof. Qed.
Print Assumptions C96_probability.
(** A tentative collision is a collision or a virtual one. It is a collision for random numbers
    below the exact probability and a virtual one above, up to one part in 2^34; if the majorants
    are the totals it is always a collision. *)
Theorem C96_step :
  forall (L : Libm) fuel (w : world (F64 L)) (p q : particle (F64 L) (Minstd (F64 L))) c m s ds,
  transport_step CellDeltaTracking fuel w p = Ok q ->
  in_material p c m ->
  (N.of_nat (length (m_afracs m)) <= 65536)%N ->
  List.Forall (bounded_entry p) (m_afracs m) ->
  let T := exact_rates p (m_afracs m) in
  let M := exact_bounds p (m_afracs m) in
  powerRZ 2 (-900) <= M ->
  nearest_surface c (p_position p) (p_direction p) = Ok (s, ds) ->
  exists majorant, mat_majorant m p = Ok majorant
  /\ let (d, s1) := exponential (Minstd (F64 L)) (nmul (F64 L) (m_density m) majorant) (p_rng p) in
     (* the distance drawn does not reach the next surface *)
     SFltb ds d = false ->
     let site := padd (p_position p) (pscale (p_direction p) d) in
     let u := value (draw (Minstd (F64 L)) 0 s1) in
     let real := exists nu a x, In (nu, a) (m_afracs m) /\ p_position x = site /\ p_cell x = p_cell p
                   /\ same_flight p x /\ nu_interact fuel nu x = Ok q in
     let virtual := p_event q = virtual_collision /\ p_position q = site /\ p_cell q = p_cell p
                    /\ same_flight p q in
     (real \/ virtual)
     /\ (u < T / M - slack -> real)
     /\ (T / M + slack < u -> virtual)
     (* majorants that are totals: never virtual *)
     /\ (List.Forall (tight_entry p) (m_afracs m) -> real).
Proof. exact C96_step_proof. Qed.
Print Assumptions C96_step.

Example C96_case : exists q q',
  (forall k, let p := hot_probe k in
     in_material p hot_cell hot_material
     /\ (N.of_nat (length (m_afracs hot_material)) <= 65536)%N
     /\ List.Forall (bounded_entry p) (m_afracs hot_material)
     /\ exact_rates p (m_afracs hot_material) / exact_bounds p (m_afracs hot_material) = / 2
     /\ powerRZ 2 (-900) <= exact_bounds p (m_afracs hot_material)
     /\ nearest_surface hot_cell (p_position p) (p_direction p) = Ok (far_wall, dd 1000 0)
     /\ mat_majorant hot_material p = Ok two64)
  /\ transport_step CellDeltaTracking 3 hot_world (hot_probe 2) = Ok q /\ p_event q = virtual_collision
  /\ transport_step CellDeltaTracking 3 hot_world (hot_probe 6) = Ok q' /\ p_event q' = capture
  /\ (let (d, s1) := exponential (Minstd D64) (nmul D64 (m_density hot_material) two64) (p_rng (hot_probe 2)) in
      SFltb (dd 1000 0) d = false /\ / 2 + slack < value (draw (Minstd D64) 0 s1))
  /\ (let (d, s1) := exponential (Minstd D64) (nmul D64 (m_density hot_material) two64) (p_rng (hot_probe 6)) in
      SFltb (dd 1000 0) d = false /\ value (draw (Minstd D64) 0 s1) < / 2 - slack).
Proof. exact C96_example. Qed.
