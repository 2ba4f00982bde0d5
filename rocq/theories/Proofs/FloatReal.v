(** Doubles as real numbers: operations round, comparisons compare. *)
From Coq Require Import Bool ZArith NArith Reals Lra Lia SpecFloat.
From Flocq Require Import Core BinarySingleNaN Relative.
From Verif Require Import Model.Num Spec.DoubleSpec Proofs.FloatLib.
Local Open Scope R_scope.

(** [x] is the finite double of value [r]. *)
Definition is64 (x : spec_float) (r : R) : Prop :=
  exists b : b64, x = B2SF b /\ is_finite b = true /\ B2R b = r.

Notation big := (bpow radix2 1024).
Notation format64 := (generic_format radix2 (SpecFloat.fexp 53 1024)).
Notation fexp64 := (SpecFloat.fexp 53 1024).

Lemma is64_value x r : is64 x r -> value x = r.
Proof.
  intros (b & -> & F & <-). destruct b as [s|s| |s m e B]; try discriminate F; [reflexivity|].
  cbn. unfold F2R. cbn [Fnum Fexp]. rewrite bpow_powerRZ. change (IZR radix2) with 2. destruct s; cbn [cond_Zopp Z.opp].
  - change (Z.neg m) with (- Z.pos m)%Z. rewrite opp_IZR. ring.
  - ring.
Qed.
Lemma is64_double x r : is64 x r -> is_double x /\ finite x.
Proof.
  intros (b & -> & F & _). split; [apply valid_binary_B2SF|]. now destruct b.
Qed.
Lemma double_is64 x : is_double x -> finite x -> is64 x (value x).
Proof.
  intros D F. pose (b := SF2B x D : b64). assert (E : B2SF b = x) by apply B2SF_SF2B.
  assert (Fb : is_finite b = true).
  { rewrite <- is_finite_SF_B2SF, E. now destruct x. }
  enough (K : is64 x (B2R b)) by (now rewrite (is64_value _ _ K)).
  exists b. auto.
Qed.
Lemma is64_fun x r s : is64 x r -> is64 x s -> r = s.
Proof. intros H K. rewrite <- (is64_value _ _ H). now apply is64_value. Qed.
Lemma is64_format x r : is64 x r -> format64 r.
Proof. intros (b & _ & _ & <-). apply generic_format_B2R. Qed.
Lemma is64_big x r : is64 x r -> Rabs r < big.
Proof. intros (b & _ & _ & <-). apply abs_B2R_lt_emax. Qed.
Lemma is64_int z : (Z.abs z <= 2 ^ 53)%Z -> is64 (f64_ofZ z) (IZR z).
Proof. intros H. rewrite ofZ_bz. destruct (bz_int z H) as (R & F & _). exists (bz z). auto. Qed.

Lemma is64_add x y r s : is64 x r -> is64 y s -> Rabs (rnd (r + s)) < big ->
  is64 (SFadd prec64 emax64 x y) (rnd (r + s)).
Proof.
  intros (b & -> & F & <-) (c & -> & F' & <-) H.
  pose proof (Bplus_correct 53 1024 prec_ok emax_ok mode_NE b c F F') as K. cbn [round_mode] in K.
  rewrite Rlt_bool_true in K by exact H. destruct K as (K1 & K2 & _).
  exists (Bplus mode_NE b c). split; [apply sf_add|]. auto.
Qed.
Lemma is64_sub x y r s : is64 x r -> is64 y s -> Rabs (rnd (r - s)) < big ->
  is64 (SFsub prec64 emax64 x y) (rnd (r - s)).
Proof.
  intros (b & -> & F & <-) (c & -> & F' & <-) H.
  pose proof (Bminus_correct 53 1024 prec_ok emax_ok mode_NE b c F F') as K. cbn [round_mode] in K.
  rewrite Rlt_bool_true in K by exact H. destruct K as (K1 & K2 & _).
  exists (Bminus mode_NE b c). split; [apply sf_sub|]. auto.
Qed.
Lemma is64_mul x y r s : is64 x r -> is64 y s -> Rabs (rnd (r * s)) < big ->
  is64 (SFmul prec64 emax64 x y) (rnd (r * s)).
Proof.
  intros (b & -> & F & <-) (c & -> & F' & <-) H.
  pose proof (Bmult_correct 53 1024 prec_ok emax_ok mode_NE b c) as K. cbn [round_mode] in K.
  rewrite Rlt_bool_true in K by exact H. destruct K as (K1 & K2 & _). rewrite F, F' in K2.
  exists (Bmult mode_NE b c). split; [apply sf_mul|]. auto.
Qed.
Lemma is64_div x y r s : is64 x r -> is64 y s -> s <> 0 -> Rabs (rnd (r / s)) < big ->
  is64 (SFdiv prec64 emax64 x y) (rnd (r / s)).
Proof.
  intros (b & -> & F & <-) (c & -> & F' & <-) N H.
  pose proof (Bdiv_correct 53 1024 prec_ok emax_ok mode_NE b c N) as K. cbn [round_mode] in K.
  rewrite Rlt_bool_true in K by exact H. destruct K as (K1 & K2 & _). rewrite F in K2.
  exists (Bdiv mode_NE b c). split; [apply sf_div|]. auto.
Qed.
Lemma is64_ltb x y r s : is64 x r -> is64 y s -> SFltb x y = Rlt_bool r s.
Proof. intros (b & -> & F & <-) (c & -> & F' & <-). exact (Bltb_correct 53 1024 b c F F'). Qed.
Lemma is64_leb x y r s : is64 x r -> is64 y s -> SFleb x y = Rle_bool r s.
Proof. intros (b & -> & F & <-) (c & -> & F' & <-). exact (Bleb_correct 53 1024 b c F F'). Qed.
Lemma is64_eqb x y r s : is64 x r -> is64 y s -> SFeqb x y = Req_bool r s.
Proof. intros (b & -> & F & <-) (c & -> & F' & <-). exact (Beqb_correct 53 1024 b c F F'). Qed.

(** Rounding. *)
Lemma rnd_le a b : a <= b -> rnd a <= rnd b.
Proof.
  intros H. apply round_le; [apply fexp_correct, prec_ok|apply valid_rnd_N|exact H].
Qed.
Lemma rnd_id r : format64 r -> rnd r = r.
Proof. apply round_generic. apply valid_rnd_N. Qed.
Lemma rnd_0 : rnd 0 = 0.
Proof. apply round_0. apply valid_rnd_N. Qed.
Lemma rnd_nonneg r : 0 <= r -> 0 <= rnd r.
Proof. intros H. rewrite <- rnd_0. now apply rnd_le. Qed.
Lemma rnd_le_format r b : format64 b -> r <= b -> rnd r <= b.
Proof. intros F H. rewrite <- (rnd_id b F). now apply rnd_le. Qed.
Lemma rnd_ge_format r b : format64 b -> b <= r -> b <= rnd r.
Proof. intros F H. rewrite <- (rnd_id b F). now apply rnd_le. Qed.
Lemma bpow_format e : (-1074 <= e)%Z -> format64 (bpow radix2 e).
Proof.
  intros H. change (SpecFloat.fexp 53 1024) with (FLT_exp (-1074) 53).
  apply generic_format_bpow. unfold FLT_exp. lia.
Qed.
Lemma rnd_small r e : (-1074 <= e < 1024)%Z -> Rabs r <= bpow radix2 e -> Rabs (rnd r) < big.
Proof.
  intros He H. apply Rle_lt_trans with (bpow radix2 e); [|now apply bpow_lt].
  apply Rabs_le.
  apply Rabs_le_inv in H. split.
  - apply rnd_ge_format; [|lra]. apply generic_format_opp, bpow_format. lia.
  - apply rnd_le_format; [|lra]. apply bpow_format. lia.
Qed.

(** The value truncated to an integer. *)
Lemma is64_toN x r : is64 x r -> 0 <= r < IZR (2 ^ 64) -> f64_toN x = Some (Z.to_N (Zfloor r)).
Proof.
  intros (b & -> & F & <-) H. destruct b as [s|s| |s m e B]; try discriminate F.
  - cbn. replace (Zfloor 0) with 0%Z; auto. symmetry. apply (Zfloor_IZR 0).
  - cbn [B2SF B2R] in *. unfold f64_toN.
    destruct s; [|].
    { exfalso. destruct H as [H _]. apply (Rlt_not_le _ _ (F2R_lt_0 radix2 (Float radix2 (Z.neg m) e) eq_refl)).
      exact H. }
    cbn [cond_Zopp] in *.
    assert (Fl : Zfloor (F2R (Float radix2 (Z.pos m) e))
      = (if (e <? 0)%Z then Z.pos m / 2 ^ (- e) else Z.pos m * 2 ^ e)%Z).
    { unfold F2R. cbn [Fnum Fexp]. destruct (Z.ltb_spec e 0) as [Ne|Ne].
      - replace (bpow radix2 e) with (/ IZR (2 ^ (- e))).
        + apply Zfloor_div. pose proof (Z.pow_pos_nonneg 2 (- e)). lia.
        + rewrite <- (Z.opp_involutive e) at 2. rewrite bpow_opp. f_equal.
          apply (IZR_Zpower radix2). lia.
      - rewrite <- (IZR_Zpower radix2) by lia. rewrite <- mult_IZR. apply Zfloor_IZR. }
    rewrite <- Fl. set (z := Zfloor _) in *.
    assert (z < 2 ^ 64)%Z.
    { apply lt_IZR. apply Rle_lt_trans with (2 := proj2 H). apply Zfloor_lb. }
    destruct (Z.ltb_spec z (2 ^ 64)); [reflexivity|lia].
Qed.
