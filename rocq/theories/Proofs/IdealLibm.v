(** A mathematical library whose results are correctly rounded, used only to show that
    the assumptions made about such libraries can be met. *)
From Coq Require Import Bool ZArith NArith Reals Lra Lia SpecFloat.
From Flocq Require Import Core BinarySingleNaN Relative.
From Verif Require Import Model.Num Spec.DoubleSpec
  Proofs.RealLib Proofs.FloatLib Proofs.FloatReal Proofs.DoubleBins Proofs.DoubleRandom.
Local Open Scope R_scope.

Definition to64 (r : R) : spec_float :=
  B2SF (binary_normalize 53 1024 prec_ok emax_ok mode_NE
          (Ztrunc (scaled_mantissa radix2 fexp64 (rnd r))) (cexp radix2 fexp64 (rnd r)) false).

Lemma to64_is r : Rabs (rnd r) < big -> is64 (to64 r) (rnd r).
Proof.
  intros H. assert (F : format64 (rnd r)).
  { apply generic_format_round; [apply fexp_correct, prec_ok|apply valid_rnd_N]. }
  pose proof (binary_normalize_correct 53 1024 prec_ok emax_ok mode_NE
    (Ztrunc (scaled_mantissa radix2 fexp64 (rnd r))) (cexp radix2 fexp64 (rnd r)) false) as K.
  cbv zeta in K. assert (E : F2R (Float radix2 (Ztrunc (scaled_mantissa radix2 fexp64 (rnd r)))
    (cexp radix2 fexp64 (rnd r))) = rnd r) by (symmetry; exact F).
  rewrite E in K. cbn [round_mode] in K. rewrite (rnd_id _ F) in K.
  rewrite Rlt_bool_true in K by exact H. destruct K as (K1 & K2 & _).
  eexists. split; [reflexivity|]. split; [exact K2|exact K1].
Qed.

Definition real_of (x : xr) : R := match x with Fin r => r | _ => 0 end.
Definition ideal_libm : Libm :=
  mkLibm (fun x => to64 (cos (value x))) (fun x => to64 (sin (value x)))
    (fun x => to64 (ln (value x))) (fun x => to64 (exp (value x)))
    (fun x => to64 (real_of (xerf (Fin (value x)))))
    (fun x y => to64 (real_of (xpow (Fin (value x)) (Fin (value y))))).

(** A double below one is at most 1 - 2^-53. *)
Lemma below_one x : is_double x -> finite x -> 0 < value x < 1 ->
  bpow radix2 (-1074) <= value x <= 1 - u53.
Proof.
  intros D F H. pose proof (is64_format _ _ (double_is64 x D F)) as G.
  rewrite fexp_flt in G. apply FLT_format_generic in G; [|reflexivity].
  destruct G as [f E1 E2 E3]. set (m := Fnum f) in *. set (e := Fexp f) in *.
  change (radix2 ^ 53)%Z with (2 ^ 53)%Z in E2.
  assert (V : value x = IZR m * bpow radix2 e) by exact E1.
  assert (P : 0 < bpow radix2 e) by apply bpow_gt_0.
  assert (M : (1 <= m)%Z).
  { destruct (Z.le_gt_cases 1 m) as [A|A]; [exact A|].
    exfalso. assert (IZR m <= 0) by (apply IZR_le; lia). nra. }
  assert (M1 : 1 <= IZR m) by now apply IZR_le.
  split.
  - apply Rle_trans with (bpow radix2 e); [now apply bpow_le|]. rewrite V. nra.
  - destruct (Z.le_gt_cases 0 e) as [A|A].
    { exfalso. assert (1 <= bpow radix2 e) by exact (bpow_le radix2 0 e A). nra. }
    destruct (Z.le_gt_cases (-53) e) as [B|B].
    + assert (W : IZR (2 ^ (- e)) * bpow radix2 e = 1).
      { change (2 ^ (- e))%Z with (radix2 ^ (- e))%Z. rewrite IZR_Zpower by lia. rewrite <- bpow_plus.
        replace (- e + e)%Z with 0%Z by lia. reflexivity. }
      assert (Lt : (m < 2 ^ (- e))%Z).
      { apply lt_IZR. apply Rmult_lt_reg_r with (bpow radix2 e); [exact P|]. rewrite W, <- V. lra. }
      assert (Le : IZR m <= IZR (2 ^ (- e)) - 1) by (rewrite <- minus_IZR; apply IZR_le; lia).
      assert (u53 <= bpow radix2 e) by (apply bpow_le; lia). rewrite V. nra.
    + assert (Le : IZR m <= IZR (2 ^ 53)) by (apply IZR_le; lia).
      assert (bpow radix2 e <= bpow radix2 (-54)) by (apply bpow_le; lia).
      assert (B54 : bpow radix2 (-54) = / 18014398509481984) by reflexivity.
      assert (T : IZR (2 ^ 53) = 9007199254740992) by reflexivity. pose proof u53_small.
      rewrite V. rewrite B54 in *. rewrite T in *.
      apply Rle_trans with (9007199254740992 * / 18014398509481984); [|lra].
      apply Rmult_le_compat; lra.
Qed.

Lemma ideal_log : log_accurate ideal_libm.
Proof.
  intros x D F H. destruct (below_one x D F H) as (B1 & B2). set (v := value x) in *.
  assert (Hv : ln v <= - u53) by (pose proof (ln_below v); lra).
  pose proof u53_small.
  assert (Lo : -1074 <= ln v).
  { apply Rle_trans with (ln (bpow radix2 (-1074))); [|apply Rcomplements.ln_le; [apply bpow_gt_0|lra]].
    replace (bpow radix2 (-1074)) with (/ bpow radix2 1074) by (symmetry; exact (bpow_opp radix2 1074)).
    rewrite ln_Rinv by apply bpow_gt_0.
    rewrite bpow_powerRZ. change (powerRZ (IZR radix2) 1074) with (2 ^ Pos.to_nat 1074).
    rewrite ln_pow by lra. pose proof ln2_le.
    rewrite INR_IZR_INZ, positive_nat_Z. lra. }
  assert (S : Rabs (rnd (ln v)) < big).
  { apply (rnd_small _ 11); [lia|]. change (bpow radix2 11) with 2048. apply Rabs_le. lra. }
  pose proof (to64_is _ S) as K. destruct (is64_double _ _ K) as (K1 & K2).
  change (l_log ideal_libm x) with (to64 (ln v)). split; [exact K1|]. split; [exact K2|].
  rewrite (is64_value _ _ K). apply Rle_trans with (u53 * Rabs (ln v)).
  - apply rnd_rel. rewrite Rabs_left by lra. apply Rle_trans with u53; [|lra]. apply bpow_le. lia.
  - pose proof (Rabs_pos (ln v)). nra.
Qed.

Lemma ideal_turn : bounded_turn ideal_libm (4 * powerRZ 2 (-53)).
Proof.
  intros x D F. set (v := value x).
  assert (C : Rabs (cos v) <= 1) by (apply Rabs_le, COS_bound).
  assert (S : Rabs (sin v) <= 1) by (apply Rabs_le, SIN_bound).
  pose proof (to64_is _ (small_big _ C)) as KC. pose proof (to64_is _ (small_big _ S)) as KS.
  change (l_cos ideal_libm x) with (to64 (cos v)). change (l_sin ideal_libm x) with (to64 (sin v)).
  rewrite (is64_value _ _ KC), (is64_value _ _ KS).
  destruct (is64_double _ _ KC) as (K1 & K2). destruct (is64_double _ _ KS) as (K3 & K4).
  do 2 (split; [assumption|]). split; [now apply rnd_unit|]. do 2 (split; [assumption|]).
  split; [now apply rnd_unit|]. rewrite pow_bpow.
  pose proof (square_close _ _ _ (rnd_err _ C) (rnd_unit _ C) C) as Q1.
  pose proof (square_close _ _ _ (rnd_err _ S) (rnd_unit _ S) S) as Q2.
  apply Rabs_le_inv in Q1. apply Rabs_le_inv in Q2. pose proof (sin2_cos2 v) as E. unfold Rsqr in E.
  apply Rabs_le. lra.
Qed.
