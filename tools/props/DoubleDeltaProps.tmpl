(** Property C96: accepting collisions of cell delta tracking in double precision. *)
From Coq Require Import Bool String List Reals ZArith NArith SpecFloat.
From Verif Require Import Model.Num Model.Outcome Model.Rng Model.Xml Model.Point Model.Surface Model.Types
  Model.Field Model.Particle Model.Continuous Model.Material Model.World Model.Perturbation Model.Transport
  Spec.SumSpec Spec.RngSpec Spec.TransportSpec Spec.DoubleSpec Spec.DoubleGroupSpec
  Spec.DoubleChoiceSpec Spec.DoubleDeltaSpec
  Proofs.SampleDouble Proofs.SampleChoice Proofs.SampleDelta Proofs.DoubleDelta.
Import ListNotations.
Local Open Scope R_scope.

(** C96: the total and the majorant of a mixture are doubles, the majorant is not the smaller
    one whatever the roundings, and their quotient is a probability that differs from the exact
    quotient by at most one part in 2^34. *)
@@C96_probability
(** A tentative collision is a collision or a virtual one. It is a collision for random numbers
    below the exact probability and a virtual one above, up to one part in 2^34; if the majorants
    are the totals it is always a collision. *)
@@C96_step

Example C96_case : exists q q',
  (forall k, let p := hot_probe k in
     in_material p hot_cell hot_material
     /\ (N.of_nat (length (m_afracs hot_material)) <= 65536)%N
     /\ List.Forall (bounded_entry p) (m_afracs hot_material)
     /\ exact_rates p (m_afracs hot_material) / exact_bounds p (m_afracs hot_material) = / 2
     /\ powerRZ 2 (-900) <= exact_bounds p (m_afracs hot_material)
     /\ nearest_surface hot_cell (p_position p) (p_direction p) = Ok (far_wall, dd 1000 0)
     /\ mat_majorant hot_material p = Ok two64)
  /\ transport_step CellDeltaTracking 3 hot_world (hot_probe 2) = Ok q /\ p_event q = virtual_collision
  /\ transport_step CellDeltaTracking 3 hot_world (hot_probe 6) = Ok q' /\ p_event q' = capture
  /\ (let (d, s1) := exponential (Minstd D64) (nmul D64 (m_density hot_material) two64) (p_rng (hot_probe 2)) in
      SFltb (dd 1000 0) d = false /\ / 2 + slack < value (draw (Minstd D64) 0 s1))
  /\ (let (d, s1) := exponential (Minstd D64) (nmul D64 (m_density hot_material) two64) (p_rng (hot_probe 6)) in
      SFltb (dd 1000 0) d = false /\ value (draw (Minstd D64) 0 s1) < / 2 - slack).
Proof. exact C96_example. Qed.
