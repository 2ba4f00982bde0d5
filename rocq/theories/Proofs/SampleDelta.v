(** A heated absorber in binary64 where half of the tentative collisions are virtual. *)
From Coq Require Import Bool String List ZArith NArith Reals Lra Lia SpecFloat.
From Flocq Require Import Core BinarySingleNaN Relative.
From Verif Require Import Model.Num Model.Outcome Model.Rng Model.Xml Model.Std Model.Point
  Model.Surface Model.Types Model.Field Model.Particle Model.Multigroup Model.Continuous Model.Material
  Model.World Model.Perturbation Model.Estimator Model.Transport
  Spec.SumSpec Spec.RngSpec Spec.TransportSpec
  Spec.DoubleSpec Spec.DoubleGroupSpec Spec.DoubleChoiceSpec Spec.DoubleDeltaSpec
  Proofs.RealLib Proofs.OutcomeLib Proofs.FloatLib Proofs.FloatReal Proofs.DoubleRandom
  Proofs.SampleDouble Proofs.SampleGroups Proofs.SampleChoice Proofs.DoubleGroups.
Import ListNotations.
Local Open Scope string_scope.
Local Open Scope R_scope.

Definition unit64 : spec_float := f64_ofZ 1.
Definition two64 : spec_float := f64_ofZ 2.
Definition hot_data : continuous D64 :=
  mkContinuous (A := D64)
    [CCapture (A := D64) (mkEval (A := D64) [(dd 1 0, two64)] (dd 600 0))]
    (mkEval (A := D64) [(dd 1 0, unit64)] (dd 300 0)).
Definition hot : nuclide D64 := mkNuclide 0 "hot" [(neutron, IContinuous hot_data)].
Definition hot_material : material D64 := mkMaterial (A := D64) "hot" [(hot, unit64)] (dd 1 0).
Definition far_wall : surf D64 := mkSurf 0 (mkSurface "wall" (PlaneX (dd 1000 0 : num D64))).
Definition warming : field D64 :=
  LinearField (A := D64) (dd 1000300 0) (dd 0 0) (mkPoint (A := D64) (dd 1000 0) (dd 0 0) (dd 0 0)) (dd 300 0).
Definition hot_cell : cell D64 := mkCell 0 "hot" [(far_wall, true)] (Some hot_material) warming.
Definition hot_world : world D64 := mkWorld [far_wall] [hot] [hot_material] warming [hot_cell].
Definition hot_probe (seed : Z) : particle D64 (Minstd D64) :=
  new_particle (G := Minstd D64) (mkPoint (A := D64) (dd 0 0) (dd 0 0) (dd 0 0))
    (mkPoint (A := D64) (dd 1 0) (dd 0 0) (dd 0 0)) (ContinuousE (dd 1 0)) neutron seed (Some hot_cell).


Definition first_u (k : Z) : spec_float :=
  fst (runif (Minstd D64) (snd (exponential (Minstd D64) (nmul D64 (dd 1 0) two64) (p_rng (hot_probe k))))).
Definition hot_event (k : Z) : option event :=
  match transport_step CellDeltaTracking 3 hot_world (hot_probe k) with Ok q => Some (p_event q) | _ => None end.
Definition hot_check : bool :=
  (SFltb (S754_finite false 4512395720392704 (-53)) (first_u 2) && SFltb (first_u 6) (S754_finite false 8989607068696576 (-54))
   && negb (SFltb (dd 1000 0) (fst (exponential (Minstd D64) (nmul D64 (dd 1 0) two64) (p_rng (hot_probe 2)))))
   && negb (SFltb (dd 1000 0) (fst (exponential (Minstd D64) (nmul D64 (dd 1 0) two64) (p_rng (hot_probe 6))))))%bool.
Lemma hot_checked : hot_check = true.
Proof. checked. Qed.
Lemma hot_virtual : hot_event 2 = Some virtual_collision.
Proof. checked. Qed.
Lemma hot_real : hot_event 6 = Some capture.
Proof. checked. Qed.
Lemma hot_total k : nu_total hot (hot_probe k) = Ok unit64.
Proof. reflexivity. Qed.
Lemma hot_majorant k : nu_majorant hot (hot_probe k) = Ok two64.
Proof. reflexivity. Qed.
Lemma unit_double : double_up_to (powerRZ 2 400) unit64 /\ value unit64 = 1.
Proof.
  pose proof (is64_int 1 ltac:(lia)) as I. destruct (is64_double _ _ I) as [D F].
  assert (1 <= powerRZ 2 400). { rewrite pow_bpow. change 1 with (bpow radix2 0). apply bpow_le. lia. }
  split; [|exact (is64_value _ _ I)]. split; [exact D|]. split; [exact F|].
  unfold unit64. rewrite (is64_value _ _ I). lra.
Qed.
Lemma two_double : double_up_to (powerRZ 2 400) two64 /\ value two64 = 2.
Proof.
  pose proof (is64_int 2 ltac:(lia)) as I. destruct (is64_double _ _ I) as [D F].
  assert (2 <= powerRZ 2 400). { rewrite pow_bpow. change 2 with (bpow radix2 1). apply bpow_le. lia. }
  split; [|exact (is64_value _ _ I)]. split; [exact D|]. split; [exact F|].
  unfold two64. rewrite (is64_value _ _ I). lra.
Qed.

Lemma hot_meets k : let p := hot_probe k in
  in_material p hot_cell hot_material
  /\ (N.of_nat (length (m_afracs hot_material)) <= 65536)%N
  /\ List.Forall (bounded_entry p) (m_afracs hot_material)
  /\ exact_rates p (m_afracs hot_material) = 1
  /\ exact_bounds p (m_afracs hot_material) = 2
  /\ powerRZ 2 (-900) <= exact_bounds p (m_afracs hot_material)
  /\ nearest_surface hot_cell (p_position p) (p_direction p) = Ok (far_wall, dd 1000 0)
  /\ mat_majorant hot_material p = Ok two64.
Proof.
  intros p. destruct unit_double as [U1 U2]. destruct two_double as [T1 T2].
  assert (E1 : exact_rates p (m_afracs hot_material) = 1).
  { unfold exact_rates, hot_material, m_afracs. cbn [map Rsum]. unfold exact_rate. cbn [fst snd]. unfold p. rewrite hot_total.
    cbn [returned]. rewrite U2. lra. }
  assert (E2 : exact_bounds p (m_afracs hot_material) = 2).
  { unfold exact_bounds, hot_material, m_afracs. cbn [map Rsum]. unfold exact_bound. cbn [fst snd]. unfold p. rewrite hot_majorant.
    cbn [returned]. rewrite U2, T2. lra. }
  split; [split; reflexivity|]. split; [cbn; lia|]. split; [|split; [exact E1|split; [exact E2|split; [|split; reflexivity]]]].
  - constructor; [|constructor]. split; [exact U1|]. cbn [fst snd]. unfold p. rewrite hot_total, hot_majorant.
    split; [exists unit64; split; [reflexivity|exact U1]|]. split; [exists two64; split; [reflexivity|exact T1]|].
    cbn [returned]. lra.
  - rewrite E2, pow_bpow. apply Rle_trans with (bpow radix2 0); [apply bpow_le; lia|]. cbn. lra.
Qed.

Lemma half_more e : SFltb (S754_finite false 4512395720392704 (-53)) e = true -> is64 e (value e) -> / 2 + slack < value e.
Proof.
  intros H I. assert (I2 : is64 (S754_finite false 4512395720392704 (-53)) (513 / 1024)).
  { replace (513 / 1024) with (value (S754_finite false 4512395720392704 (-53))).
    - apply double_is64; [reflexivity|exact Logic.I].
    - cbn [value]. rewrite pow_bpow. change (bpow radix2 (-53)) with (/ 9007199254740992). lra. }
  rewrite (is64_ltb _ _ _ _ I2 I) in H. rewrite slack_val.
  destruct (Rlt_bool_spec (513 / 1024) (value e)); [lra|discriminate].
Qed.
Lemma half_less e : SFltb e (S754_finite false 8989607068696576 (-54)) = true -> is64 e (value e) -> value e < / 2 - slack.
Proof.
  intros H I. assert (I2 : is64 (S754_finite false 8989607068696576 (-54)) (511 / 1024)).
  { replace (511 / 1024) with (value (S754_finite false 8989607068696576 (-54))).
    - apply double_is64; [reflexivity|exact Logic.I].
    - cbn [value]. rewrite pow_bpow. change (bpow radix2 (-54)) with (/ 18014398509481984). lra. }
  rewrite (is64_ltb _ _ _ _ I I2) in H. rewrite slack_val.
  destruct (Rlt_bool_spec (value e) (511 / 1024)); [lra|discriminate].
Qed.
Lemma first_u_is64 k : is64 (first_u k) (value (first_u k)).
Proof.
  unfold first_u. destruct (unif64 sample_libm (snd (exponential (Minstd D64) (nmul D64 (dd 1 0) two64) (p_rng (hot_probe k))))) as (v & I & _).
  destruct (is64_double _ _ I) as [D F]. now apply double_is64.
Qed.
Lemma hot_ran k e : hot_event k = Some e -> exists q, transport_step CellDeltaTracking 3 hot_world (hot_probe k) = Ok q /\ p_event q = e.
Proof.
  unfold hot_event. destruct (transport_step CellDeltaTracking 3 hot_world (hot_probe k)) as [q| | | |]; try discriminate.
  intros [= <-]. exists q. auto.
Qed.

(** Two neutrons in it: one has a virtual collision and one a capture, for random numbers
    on either side of a half. *)
Lemma C96_example : exists q q',
  (forall k, let p := hot_probe k in
     in_material p hot_cell hot_material
     /\ (N.of_nat (length (m_afracs hot_material)) <= 65536)%N
     /\ List.Forall (bounded_entry p) (m_afracs hot_material)
     /\ exact_rates p (m_afracs hot_material) / exact_bounds p (m_afracs hot_material) = / 2
     /\ powerRZ 2 (-900) <= exact_bounds p (m_afracs hot_material)
     /\ nearest_surface hot_cell (p_position p) (p_direction p) = Ok (far_wall, dd 1000 0)
     /\ mat_majorant hot_material p = Ok two64)
  /\ transport_step CellDeltaTracking 3 hot_world (hot_probe 2) = Ok q /\ p_event q = virtual_collision
  /\ transport_step CellDeltaTracking 3 hot_world (hot_probe 6) = Ok q' /\ p_event q' = capture
  /\ (let (d, s1) := exponential (Minstd D64) (nmul D64 (m_density hot_material) two64) (p_rng (hot_probe 2)) in
      SFltb (dd 1000 0) d = false /\ / 2 + slack < value (draw (Minstd D64) 0 s1))
  /\ (let (d, s1) := exponential (Minstd D64) (nmul D64 (m_density hot_material) two64) (p_rng (hot_probe 6)) in
      SFltb (dd 1000 0) d = false /\ value (draw (Minstd D64) 0 s1) < / 2 - slack).
Proof.
  destruct (hot_ran 2 _ hot_virtual) as (q & Q1 & Q2). destruct (hot_ran 6 _ hot_real) as (q' & Q3 & Q4).
  exists q, q'. split.
  { intros k. destruct (hot_meets k) as (H1 & H2 & H3 & H4 & H5 & H6 & H7 & H8). cbv zeta.
    rewrite H4. rewrite H5 in H6 |- *. repeat split; auto; try apply H1. lra. }
  split; [exact Q1|]. split; [exact Q2|]. split; [exact Q3|]. split; [exact Q4|].
  pose proof hot_checked as K. unfold hot_check in K.
  apply andb_prop in K as [K K4]. apply andb_prop in K as [K K3]. apply andb_prop in K as [K1 K2].
  pose proof (half_more _ K1 (first_u_is64 2)) as V1. pose proof (half_less _ K2 (first_u_is64 6)) as V2.
  apply negb_true_iff in K3, K4. unfold first_u in V1, V2. change (m_density hot_material) with (dd 1 0).
  split.
  - destruct (exponential (Minstd D64) (nmul D64 (dd 1 0) two64) (p_rng (hot_probe 2))) as [d s1]. split; [exact K3|exact V1].
  - destruct (exponential (Minstd D64) (nmul D64 (dd 1 0) two64) (p_rng (hot_probe 6))) as [d s1]. split; [exact K4|exact V2].
Qed.
