(** Two nuclides given by energy, in binary64, whose table of totals is not the rounded
    sum of their reactions. *)
From Coq Require Import Bool String List ZArith NArith Reals Lra Lia SpecFloat.
From Flocq Require Import Core BinarySingleNaN Relative.
From Verif Require Import Model.Num Model.Outcome Model.Rng Model.Xml Model.Std Model.Point
  Model.Surface Model.Types Model.Field Model.Particle Model.Multigroup Model.Continuous Model.Material
  Spec.SumSpec Spec.RngSpec Spec.DoubleSpec Spec.DoubleGroupSpec Spec.DoubleChoiceSpec
  Proofs.RealLib Proofs.OutcomeLib Proofs.FloatLib Proofs.FloatReal Proofs.DoubleRandom
  Proofs.SampleDouble Proofs.SampleGroups Proofs.DoubleChoice.
Import ListNotations.
Local Open Scope string_scope.
Local Open Scope R_scope.

Definition dd (m e : Z) : num D64 := ndec D64 m e.
Definition flat_data (m : Z) : evaluation D64 := mkEval (A := D64) [(dd 1 0, dd m (-1))] (dd 300 0).
Definition ore_data (capture_xs scatter_xs : Z) : continuous D64 :=
  mkContinuous (A := D64)
    [CCapture (A := D64) (flat_data capture_xs); CScatter (A := D64) (flat_data scatter_xs) None (dd 12 0)]
    (flat_data (capture_xs + scatter_xs)).
Definition ore (id : nat) (capture_xs scatter_xs : Z) : nuclide D64 :=
  mkNuclide id "ore" [(neutron, IContinuous (ore_data capture_xs scatter_xs))].
Definition rock : material D64 :=
  mkMaterial (A := D64) "rock" [(ore 0 1 2, dd 3 (-1)); (ore 1 5 6, dd 7 (-1))] (dd 1 0).
Definition quarry (T : Z) : cell D64 := mkCell 0 "quarry" [] (Some rock) (constant_field (dd T 0)).
Definition probe (T : Z) : particle D64 (Minstd D64) :=
  new_particle (G := Minstd D64) (mkPoint (A := D64) (dd 0 0) (dd 0 0) (dd 0 0))
    (mkPoint (A := D64) (dd 1 0) (dd 0 0) (dd 0 0)) (ContinuousE (dd 1 0)) neutron 1 (Some (quarry T)).

Definition ranged (k : Z) (o : outcome spec_float) : bool :=
  match o with Ok x => in_range k x | _ => false end.
Definition rock_check : bool :=
  (forallb (fun e => in_range 1 (snd e) && ranged 1 (nu_total (fst e) (probe 300))) (m_afracs rock)
   && forallb (fun r => ranged 1 (cr_xs r (probe 300)) && ranged 1 (cr_xs r (probe 600)))
        (co_reactions (ore_data 5 6))
   && ranged 1 (co_get_total (ore_data 5 6) (probe 300))
   && negb (ev_is_valid (co_total (ore_data 5 6)) (field_at (c_temperature (quarry 600)) (p_position (probe 600))))
   && match any_modifies (co_reactions (ore_data 5 6)) (probe 600) with Ok false => true | _ => false end)%bool.
Lemma rock_checked : rock_check = true.
Proof. checked. Qed.

Definition half_or_more (x : spec_float) : bool := (in_range 1 x && SFleb (S754_finite false 4503599627370496 (-53)) x)%bool.
Lemma half_spec x : half_or_more x = true -> / 2 <= value x.
Proof.
  unfold half_or_more. intros H. apply andb_prop in H as [H1 H2].
  destruct (in_range_spec 1 x ltac:(lia) H1) as (D & F & _). pose proof (double_is64 x D F) as I.
  assert (I2 : is64 (S754_finite false 4503599627370496 (-53)) (/ 2)).
  { replace (/ 2) with (value (S754_finite false 4503599627370496 (-53))).
    - apply double_is64; [reflexivity|exact Logic.I].
    - cbn [value]. rewrite pow_bpow. change (bpow radix2 (-53)) with (/ 9007199254740992). lra. }
  rewrite (is64_leb _ _ _ _ I2 I) in H2.
  destruct (Rle_bool_spec (/ 2) (value x)); [auto|discriminate].
Qed.

Definition heavy_check : bool :=
  (half_or_more (dd 7 (-1))
   && match nu_total (ore 1 5 6) (probe 300) with Ok x => half_or_more x | _ => false end
   && match co_get_total (ore_data 5 6) (probe 300) with Ok x => half_or_more x | _ => false end)%bool.
Lemma heavy_checked : heavy_check = true.
Proof. checked. Qed.

Lemma ranged_spec k o : (0 <= k <= 53)%Z -> ranged k o = true ->
  forall most, powerRZ 2 k <= most -> returns_up_to most o.
Proof.
  intros Hk H most Hm. destruct o as [x| | | |]; try discriminate H. exists x. split; [reflexivity|].
  destruct (in_range_spec k x Hk H) as (D & F & B). split; [exact D|]. split; [exact F|]. lra.
Qed.
Lemma two_le e : (1 <= e)%Z -> powerRZ 2 1 <= powerRZ 2 e.
Proof. intros H. rewrite !pow_bpow. now apply bpow_le. Qed.

Notation six := (S754_finite false 5404319552844595 (-53)).
Notation five := (S754_finite false 4503599627370496 (-53)).
Notation eleven := (S754_finite false 4953959590107546 (-52)).
Lemma six_xs : cr_xs (CScatter (A := D64) (flat_data 6) None (dd 12 0)) (probe 300) = Ok six.
Proof. checked. Qed.
Lemma five_xs : cr_xs (CCapture (A := D64) (flat_data 5)) (probe 300) = Ok five.
Proof. checked. Qed.
Lemma eleven_xs : co_get_total (ore_data 5 6) (probe 300) = Ok eleven.
Proof. checked. Qed.

Lemma C91_nuclide_case :
  p_cell (probe 300) = Some (quarry 300) /\ c_material (quarry 300) = Some rock
  /\ (N.of_nat (length (m_afracs rock)) <= 65536)%N
  /\ List.Forall (usable_entry (probe 300)) (m_afracs rock)
  /\ powerRZ 2 (-900) <= exact_rates (probe 300) (m_afracs rock).
Proof.
  pose proof rock_checked as K. unfold rock_check in K.
  apply andb_prop in K as [K _]. apply andb_prop in K as [K _]. apply andb_prop in K as [K _].
  apply andb_prop in K as [K _].
  assert (U : List.Forall (usable_entry (probe 300)) (m_afracs rock)).
  { rewrite forallb_forall in K. apply Forall_forall. intros e He. specialize (K e He).
    apply andb_prop in K as [K1 K2]. destruct (in_range_spec 1 _ ltac:(lia) K1) as (D & F & B).
    split.
    - split; [exact D|]. split; [exact F|]. split; [exact (proj1 B)|]. apply Rle_trans with (1 := proj2 B). apply two_le. lia.
    - apply (ranged_spec 1 _ ltac:(lia) K2). apply two_le. lia. }
  split; [reflexivity|]. split; [reflexivity|]. split; [cbn; lia|]. split; [exact U|].
  pose proof heavy_checked as H. unfold heavy_check in H.
  apply andb_prop in H as [H _]. apply andb_prop in H as [H1 H2].
  apply half_spec in H1.
  unfold exact_rates, rock, m_afracs. cbn [map Rsum]. unfold exact_rate. cbn [fst snd].
  inversion U as [|e l [U1 (x & Ex & U2)] U3 E1]; subst. inversion U3 as [|e l [U4 (y & Ey & U5)] U6 E1]; subst.
  cbn [fst snd] in *. rewrite Ex, Ey in *. cbn [returned].
  apply half_spec in H2. destruct U1 as (_ & _ & U1). destruct U2 as (_ & _ & U2).
  assert (0 <= value (dd 3 (-1)) * value x) by (apply Rmult_le_pos; lra).
  assert (/ 2 * / 2 <= value (dd 7 (-1)) * value y) by (apply Rmult_le_compat; lra).
  assert (powerRZ 2 (-900) <= / 4).
  { rewrite pow_bpow. change (/ 4) with (bpow radix2 (-2)). apply bpow_le. lia. }
  lra.
Qed.

Lemma C91_reaction_case : exists total,
  co_get_total (ore_data 5 6) (probe 300) = Ok total /\ double_up_to (powerRZ 2 900) total
  /\ powerRZ 2 (-900) <= value total
  /\ (N.of_nat (length (co_reactions (ore_data 5 6))) <= 65536)%N
  /\ List.Forall (fun r => returns_up_to (powerRZ 2 900) (cr_xs r (probe 300))) (co_reactions (ore_data 5 6))
  /\ (let S := exact_sum (probe 300) (co_reactions (ore_data 5 6)) in S < value total <= S + slack * S).
Proof.
  assert (V5 : value five = 4503599627370496 * / 9007199254740992).
  { cbn [value]. rewrite pow_bpow. change (bpow radix2 (-53)) with (/ 9007199254740992). lra. }
  assert (V6 : value six = 5404319552844595 * / 9007199254740992).
  { cbn [value]. rewrite pow_bpow. change (bpow radix2 (-53)) with (/ 9007199254740992). lra. }
  assert (V11 : value eleven = 4953959590107546 * / 4503599627370496).
  { cbn [value]. rewrite pow_bpow. change (bpow radix2 (-52)) with (/ 4503599627370496). lra. }
  assert (B : 2 <= powerRZ 2 900).
  { apply Rle_trans with (2 := two_le 900 ltac:(lia)). rewrite pow_bpow. change (bpow radix2 1) with 2. apply Rle_refl. }
  exists eleven. split; [exact eleven_xs|].
  split. { split; [reflexivity|]. split; [exact Logic.I|]. rewrite V11. lra. }
  split. { rewrite V11. assert (powerRZ 2 (-900) <= / 4).
    { rewrite pow_bpow. change (/ 4) with (bpow radix2 (-2)). apply bpow_le. lia. } lra. }
  split; [cbn; lia|].
  split.
  { cbn [ore_data co_reactions]. apply List.Forall_cons; [|apply List.Forall_cons; [|apply List.Forall_nil]].
    - exists five. split; [exact five_xs|]. split; [reflexivity|]. split; [exact Logic.I|]. rewrite V5. lra.
    - exists six. split; [exact six_xs|]. split; [reflexivity|]. split; [exact Logic.I|]. rewrite V6. lra. }
  cbv zeta. unfold exact_sum, ore_data, co_reactions. cbn [map Rsum]. unfold exact_xs.
  rewrite five_xs, six_xs. cbn [returned]. rewrite V5, V6, V11. unfold slack. rewrite pow_bpow.
  change (bpow radix2 (-34)) with (/ 17179869184). lra.
Qed.

Lemma C91_summed_case :
  p_cell (probe 600) = Some (quarry 600)
  /\ any_modifies (co_reactions (ore_data 5 6)) (probe 600) = Ok false
  /\ ev_is_valid (co_total (ore_data 5 6))
       (field_at (c_temperature (quarry 600)) (p_position (probe 600))) = false
  /\ List.Forall (fun r => returns_up_to (powerRZ 2 900) (cr_xs r (probe 600))) (co_reactions (ore_data 5 6)).
Proof.
  pose proof rock_checked as K. unfold rock_check in K.
  apply andb_prop in K as [K _]. apply andb_prop in K as [K K4]. apply andb_prop in K as [K _].
  apply andb_prop in K as [_ K2].
  split; [reflexivity|]. split; [reflexivity|]. split; [now apply negb_true_iff in K4|].
  rewrite forallb_forall in K2. apply Forall_forall. intros r Hr. specialize (K2 r Hr).
  apply andb_prop in K2 as [_ K2]. apply (ranged_spec 1 _ ltac:(lia) K2). apply two_le. lia.
Qed.
