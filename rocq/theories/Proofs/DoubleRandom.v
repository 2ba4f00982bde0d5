(** Random numbers in binary64: C80. *)
From Coq Require Import Bool ZArith NArith Reals Lra Lia SpecFloat.
From Flocq Require Import Core BinarySingleNaN Relative.
From Verif Require Import Model.Num Model.Rng Model.Point Spec.DoubleSpec
  Proofs.RealLib Proofs.FloatLib Proofs.FloatReal Proofs.DoubleBins.
Local Open Scope R_scope.

Lemma u53_small : 0 < u53 <= / 9007199254740992.
Proof. rewrite u53_val. lra. Qed.

(** Square roots. *)
Lemma sf_sqrt (x : b64) : SFsqrt 53 1024 (B2SF x) = B2SF (Bsqrt mode_NE x).
Proof.
  unfold Bsqrt. destruct x as [s|[]| |[] m e B]; try reflexivity. cbn [B2SF SFsqrt].
  rewrite B2SF_SF2B. destruct (SFsqrt_core_binary _ _ _ _) as [[mz ez] lz]. apply sf_round_aux.
Qed.
Lemma is64_sqrt x r : is64 x r -> 0 <= r -> is64 (SFsqrt prec64 emax64 x) (rnd (sqrt r)).
Proof.
  intros (b & -> & F & <-) H. pose proof (Bsqrt_correct 53 1024 prec_ok emax_ok mode_NE b) as (K1 & K2 & _).
  cbn [round_mode] in K1. exists (Bsqrt mode_NE b). split; [apply sf_sqrt|]. split; [|exact K1].
  rewrite K2. destruct b as [s|s| |[] m e B]; try discriminate F; try reflexivity.
  exfalso. apply (Rlt_not_le _ _ (F2R_lt_0 radix2 (Float radix2 (Z.neg m) e) eq_refl)). exact H.
Qed.
Lemma is64_opp x r : is64 x r -> is64 (SFopp x) (- r).
Proof.
  intros (b & -> & F & <-). exists (Bopp b). split; [now destruct b|].
  split; [now rewrite is_finite_Bopp|apply B2R_Bopp].
Qed.

(** The absolute error of rounding a number up to one. *)
Lemma rnd_unit r : Rabs r <= 1 -> Rabs (rnd r) <= 1.
Proof.
  intros H. apply Rabs_le_inv in H. assert (F : format64 1) by exact (bpow_format 0 ltac:(lia)).
  apply Rabs_le. split; [apply rnd_ge_format; [now apply generic_format_opp|lra]|].
  apply rnd_le_format; [exact F|lra].
Qed.
Lemma rnd_err r : Rabs r <= 1 -> Rabs (rnd r - r) <= u53.
Proof.
  intros H. pose proof u53_small. destruct (Rle_or_lt (bpow radix2 (-1022)) (Rabs r)) as [B|B].
  - apply Rle_trans with (1 := rnd_rel r B). rewrite <- (Rmult_1_r u53) at 2.
    apply Rmult_le_compat_l; lra.
  - assert (K : Rabs (rnd r) <= bpow radix2 (-1022)).
    { apply Rabs_lt_inv in B.
      apply Rabs_le. split.
      - apply rnd_ge_format; [apply generic_format_opp, bpow_format; lia|lra].
      - apply rnd_le_format; [apply bpow_format; lia|lra]. }
    assert (bpow radix2 (-1022) <= u53 / 2).
    { change (u53 / 2) with (u53 * bpow radix2 (-1)). rewrite <- bpow_plus. apply bpow_le. lia. }
    unfold Rminus. apply Rle_trans with (1 := Rabs_triang _ _). rewrite Rabs_Ropp. lra.
Qed.

(** Multiples of 512 up to 2^62 are doubles. *)
Lemma coarse_format k : (Z.abs k < 2 ^ 53)%Z -> format64 (IZR (512 * k)).
Proof.
  intros H. rewrite fexp_flt. apply generic_format_FLT. exists (Float radix2 k 9).
  - unfold F2R. cbn [Fnum Fexp]. rewrite mult_IZR. change (bpow radix2 9) with 512. ring.
  - cbn [Fnum]. exact H.
  - cbn. lia.
Qed.

(** The two draws behind a uniform number. *)
Lemma next_back x : minstd_in x = true ->
  x = ((1899818559 * minstd_next x) mod 2147483647)%Z.
Proof.
  rewrite minstd_in_spec. intros H. unfold minstd_next, minstd_a, minstd_m.
  rewrite Zmult_mod_idemp_r.
  replace (1899818559 * (48271 * x))%Z with (x + (42704 * x) * 2147483647)%Z by lia.
  rewrite Z_mod_plus_full. symmetry. apply Z.mod_small. lia.
Qed.
Lemma two_draws x : minstd_in x = true ->
  let y := minstd_next x in
  (1 <= y <= 2147483646)%Z /\ (1 <= x <= 2147483646)%Z
  /\ (y = 1 -> x = 1899818559)%Z /\ (y = 2147483646 -> x = 247665088)%Z.
Proof.
  intros H y. assert (Hy : minstd_in y = true) by now apply minstd_next_in.
  pose proof (next_back x H) as B. fold y in B.
  apply minstd_in_spec in H. apply minstd_in_spec in Hy. split; [exact Hy|]. split; [exact H|].
  split; intros E; rewrite B, E; reflexivity.
Qed.

Definition range : Z := 2147483646.
(** The weighed sum of the two draws, exactly and in doubles. *)
Definition sum_of (x y : Z) : R := IZR (x - 1) + IZR (y - 1) * IZR range.
Definition sum64 (x y : Z) : R := rnd (IZR (x - 1) + rnd (IZR (y - 1) * IZR range)).
Definition total64 : R := 4611686009837453312.       (* 2^62 - 2^33 *)

Lemma range_int z : (0 <= z <= 2147483646)%Z -> is64 (f64_ofZ z) (IZR z).
Proof. intros H. apply is64_int. lia. Qed.
Lemma pow62 : bpow radix2 62 = 4611686018427387904.
Proof. reflexivity. Qed.
Lemma fits r : 0 <= r <= 4611686018427387904 -> Rabs (rnd r) < big.
Proof. intros H. apply (rnd_small r 62); [lia|]. rewrite pow62, Rabs_pos_eq; lra. Qed.
Lemma total_64 : is64 (SFmul prec64 emax64 (f64_ofZ range) (f64_ofZ range)) total64.
Proof.
  assert (R : is64 (f64_ofZ range) (IZR range)) by (apply range_int; unfold range; lia).
  assert (K : is64 (SFmul prec64 emax64 (f64_ofZ range) (f64_ofZ range)) (rnd (IZR range * IZR range))).
  { apply is64_mul; auto. apply fits. unfold range. lra. }
  replace total64 with (rnd (IZR range * IZR range)); [exact K|].
  rewrite <- (is64_value _ _ K). set (t := SFmul _ _ _ _). vm_compute in t. subst t.
  unfold value, total64. change (powerRZ 2 9) with 512 || simpl. lra.
Qed.

(** The rounding errors of the sum. *)
Lemma coarse_err r : 0 <= r <= 4611686018427387904 -> Rabs (rnd r - r) <= 512.
Proof.
  intros H. destruct (Rle_or_lt 1 r) as [B|B].
  - apply Rle_trans with (u53 * Rabs r).
    + apply rnd_rel. rewrite Rabs_pos_eq by lra. apply Rle_trans with 1; [|lra].
      exact (bpow_le radix2 (-1022) 0 ltac:(lia)).
    + rewrite u53_val, Rabs_pos_eq; lra.
  - apply Rle_trans with u53; [apply rnd_err; rewrite Rabs_pos_eq; lra|]. rewrite u53_val. lra.
Qed.

Section Sum.
  Variables x y : Z.
  Hypothesis Hx : (1 <= x <= 2147483646)%Z.
  Hypothesis Hy : (1 <= y <= 2147483646)%Z.
  Hypothesis least : (y = 1 -> x = 1899818559)%Z.
  Hypothesis most : (y = 2147483646 -> x = 247665088)%Z.

  Let p := IZR (y - 1) * IZR range.
  Lemma p_range : 0 <= p <= 4611686007689969670.
  Proof.
    unfold p, range. assert (0 <= IZR (y - 1)) by (apply IZR_le; lia).
    assert (IZR (y - 1) <= 2147483645) by (apply IZR_le; lia). split; nra.
  Qed.
  Lemma x_range : 0 <= IZR (x - 1) <= 2147483645.
  Proof. split; apply IZR_le; lia. Qed.
  Lemma p_rnd : 0 <= rnd p <= 4611686007689970176.
  Proof.
    pose proof p_range. split; [now apply rnd_nonneg|].
    apply rnd_le_format; [exact (coarse_format 9007199233769473 ltac:(reflexivity))|lra].
  Qed.

  Lemma sum64_ge : 1899818558 <= sum64 x y.
  Proof.
    pose proof x_range as X. apply rnd_ge_format; [apply (int_format 1899818558); lia|].
    destruct (Z.eq_dec y 1) as [E|N].
    - rewrite (least E). rewrite E. change (IZR (1 - 1)) with 0. rewrite Rmult_0_l, rnd_0.
      change (IZR (1899818559 - 1)) with 1899818558. lra.
    - enough (IZR range <= rnd (IZR (y - 1) * IZR range)) by (unfold range in *; lra).
      apply rnd_ge_format; [apply int_format; unfold range; lia|].
      assert (1 <= IZR (y - 1)) by (apply IZR_le; lia). unfold range. nra.
  Qed.
  Lemma sum64_le : sum64 x y <= 4611686007937635328.
  Proof.
    pose proof x_range as X.
    apply rnd_le_format; [exact (coarse_format 9007199234253194 ltac:(reflexivity))|].
    destruct (Z.eq_dec y 2147483646) as [E|N].
    - rewrite (most E). change (IZR (247665088 - 1)) with 247665087. fold p. pose proof p_rnd. lra.
    - enough (rnd (IZR (y - 1) * IZR range) <= 4611686005542486528) by lra.
      apply rnd_le_format; [exact (coarse_format 9007199229575169 ltac:(reflexivity))|].
      assert (IZR (y - 1) <= 2147483644) by (apply IZR_le; lia). unfold range. lra.
  Qed.
  Lemma sum64_err : Rabs (sum64 x y - sum_of x y) <= 1024.
  Proof.
    pose proof x_range as X. pose proof p_range as P. pose proof p_rnd as P'.
    assert (E1 : Rabs (rnd p - p) <= 512) by (apply coarse_err; lra).
    assert (E2 : Rabs (rnd (IZR (x - 1) + rnd p) - (IZR (x - 1) + rnd p)) <= 512)
      by (apply coarse_err; lra).
    unfold sum64, sum_of. fold p. apply Rabs_le_inv in E1. apply Rabs_le_inv in E2.
    apply Rabs_le. lra.
  Qed.
End Sum.

(** A uniform number in doubles, before and after the cap. *)
Lemma quotient_range s : 1899818558 <= s <= 4611686007937635328 ->
  bpow radix2 (-32) <= rnd (s / total64) <= 1 - bpow radix2 (-32).
Proof.
  intros H. assert (B : bpow radix2 (-32) = / 4294967296) by reflexivity.
  assert (T : total64 = 4611686009837453312) by reflexivity.
  split.
  - apply rnd_ge_format; [apply bpow_format; lia|]. rewrite B.
    apply Rmult_le_reg_r with total64; [lra|]. unfold Rdiv. rewrite (Rmult_assoc s), Rinv_l; lra.
  - apply rnd_le_format.
    + rewrite fexp_flt. apply generic_format_FLT. exists (Float radix2 4294967295 (-32)).
      * unfold F2R. cbn [Fnum Fexp]. rewrite B. lra.
      * cbn. lia.
      * cbn. lia.
    + rewrite B. apply Rmult_le_reg_r with total64; [lra|]. unfold Rdiv.
      rewrite (Rmult_assoc s), Rinv_l; lra.
Qed.

Lemma canonical64 (L : Libm) (x : Z) : minstd_in x = true ->
  exists r, is64 (fst (minstd_canonical (F64 L) x)) r
  /\ bpow radix2 (-32) <= r <= 1 - bpow radix2 (-32)
  /\ Rabs (r - sum_of (minstd_next x) (minstd_next (minstd_next x)) / (IZR range * IZR range))
     <= bpow radix2 (-51).
Proof.
  intros Hx. set (x1 := minstd_next x). set (x2 := minstd_next x1).
  assert (H1 : minstd_in x1 = true) by now apply minstd_next_in.
  destruct (two_draws x1 H1) as (R2 & R1 & least & most). fold x2 in R2, least, most.
  pose proof (sum64_ge x1 x2 R1 R2 least) as GE. pose proof (sum64_le x1 x2 R1 R2 most) as LE.
  pose proof (sum64_err x1 x2 R1 R2) as ER.
  pose proof (p_range x2 R2) as P. assert (P' : 0 <= rnd (IZR (x2 - 1) * IZR range) <= 4611686007689970176) by (eapply p_rnd; eauto). pose proof (x_range x1 R1) as X.
  pose proof (quotient_range _ (conj GE LE)) as Q.
  assert (T : total64 = 4611686009837453312) by reflexivity.
  assert (B : bpow radix2 (-32) = / 4294967296) by reflexivity.
  exists (rnd (sum64 x1 x2 / total64)).
  assert (S : is64 (SFadd prec64 emax64 (f64_ofZ (x1 - 1))
      (SFmul prec64 emax64 (f64_ofZ (x2 - 1)) (f64_ofZ range))) (sum64 x1 x2)).
  { apply is64_add; [apply range_int; lia| |apply fits; lra].
    apply is64_mul; [apply range_int; lia|apply range_int; unfold range; lia|apply fits; lra]. }
  assert (D : is64 (SFdiv prec64 emax64 (SFadd prec64 emax64 (f64_ofZ (x1 - 1))
      (SFmul prec64 emax64 (f64_ofZ (x2 - 1)) (f64_ofZ range)))
      (SFmul prec64 emax64 (f64_ofZ range) (f64_ofZ range))) (rnd (sum64 x1 x2 / total64))).
  { apply is64_div; [exact S|exact total_64|lra|]. apply Rle_lt_trans with 1.
    - rewrite Rabs_pos_eq; lra.
    - exact (bpow_lt radix2 0 1024 ltac:(lia)). }
  split; [|split; [exact Q|]].
  - unfold minstd_canonical. fold x1. fold x2. cbn [fst nofZ nadd nmul ndiv nleb F64].
    change minstd_range with range. rewrite (is64_leb _ _ 1 _ (is64_int 1 ltac:(lia)) D).
    rewrite Rle_bool_false by lra. exact D.
  - assert (E1 : Rabs (rnd (sum64 x1 x2 / total64) - sum64 x1 x2 / total64) <= u53).
    { apply rnd_err. rewrite Rabs_pos_eq.
      - apply Rmult_le_reg_r with total64; [lra|]. unfold Rdiv. rewrite Rmult_assoc, Rinv_l; lra.
      - apply div_nonneg; lra. }
    set (s := sum64 x1 x2) in *. set (e := sum_of x1 x2) in *.
    assert (R : IZR range * IZR range = total64 + 4) by (unfold range, total64; lra).
    assert (E2 : Rabs (s / total64 - e / (total64 + 4)) <= 1030 / total64).
    { apply Rabs_le_inv in ER.
      replace (s / total64 - e / (total64 + 4))
        with (((s - e) * (total64 + 4) + 4 * e) / (total64 + 4) / total64) by (field; lra).
      apply Rabs_le.
      assert (I1 : 0 < / total64) by (apply Rinv_0_lt_compat; lra).
      assert (I2 : -1030 <= ((s - e) * (total64 + 4) + 4 * e) / (total64 + 4) <= 1030).
      { split; (apply Rmult_le_reg_r with (total64 + 4); [lra|]); unfold Rdiv;
          rewrite Rmult_assoc, Rinv_l by lra; rewrite T in *; lra. }
      unfold Rdiv at 1 3 4. split; [|apply Rmult_le_compat_r; lra].
      rewrite Ropp_mult_distr_l. apply Rmult_le_compat_r; lra. }
    rewrite R. apply Rabs_le_inv in E1. apply Rabs_le_inv in E2.
    assert (B51 : bpow radix2 (-51) = / 2251799813685248) by reflexivity. rewrite B51.
    pose proof u53_val as U. assert (1030 / total64 <= / 4470000000000000).
    { rewrite T. lra. }
    apply Rabs_le. lra.
Qed.

Lemma pow_bpow e : powerRZ 2 e = bpow radix2 e.
Proof. symmetry. exact (bpow_powerRZ radix2 e). Qed.

Lemma unif64 (L : Libm) (s : mstate) :
  exists r, is64 (fst (runif (Minstd (F64 L)) s)) r
  /\ bpow radix2 (-32) <= r <= 1 - bpow radix2 (-32).
Proof.
  destruct (canonical64 L (ms_val s) (ms_in s)) as (r & R & B & _). exists r. split; [exact R|exact B].
Qed.

Lemma C80_uniform_proof :
  forall (L : Libm) (s : rst (Minstd (F64 L))),
  let u := fst (runif (Minstd (F64 L)) s) in
  is_double u /\ finite u /\ powerRZ 2 (-32) <= value u <= 1 - powerRZ 2 (-32).
Proof.
  intros L s u. destruct (unif64 L s) as (r & R & B). fold u in R.
  destruct (is64_double _ _ R) as (D & F). rewrite (is64_value _ _ R), pow_bpow. auto.
Qed.

(** The same number in exact arithmetic. *)
Lemma canonicalX x : minstd_in x = true ->
  let e := sum_of (minstd_next x) (minstd_next (minstd_next x)) in
  fst (minstd_canonical XRa x) = Fin (e / (IZR range * IZR range))
  /\ 1899818558 <= e <= IZR range * IZR range - 1899818559.
Proof.
  intros Hx e. set (x1 := minstd_next x) in *. set (x2 := minstd_next x1) in *.
  assert (H1 : minstd_in x1 = true) by now apply minstd_next_in.
  destruct (two_draws x1 H1) as (R2 & R1 & least & most). fold x2 in R2, least, most.
  assert (B : 1899818558 <= e <= IZR range * IZR range - 1899818559).
  { unfold e, sum_of, range. rewrite <- !mult_IZR, <- plus_IZR, <- minus_IZR.
    assert (K : (1899818558 <= x1 - 1 + (x2 - 1) * 2147483646
                 <= 2147483646 * 2147483646 - 1899818559)%Z).
    { destruct (Z.eq_dec x2 1) as [E|N]; [rewrite (least E), E; lia|].
      destruct (Z.eq_dec x2 2147483646) as [E'|N']; [rewrite (most E'), E'; lia|]. lia. }
    split; apply IZR_le; lia. }
  split; [|exact B]. unfold minstd_canonical. fold x1. fold x2. change minstd_range with range.
  change (nadd XRa) with xadd. change (nmul XRa) with xmul. change (ndiv XRa) with xdiv.
  cbn [fst nofZ XRa xadd xmul].
  assert (P : 0 < IZR range * IZR range) by (unfold range; lra).
  rewrite xdiv_fin by lra. change (nleb XRa) with xleb. cbn [xleb]. fold (sum_of x1 x2). fold e.
  rewrite Rleb_false; [reflexivity|].
  apply Rmult_lt_reg_r with (IZR range * IZR range); [lra|]. unfold Rdiv.
  rewrite Rmult_assoc, Rinv_l; lra.
Qed.

Lemma C80_close_proof :
  forall (L : Libm) (s : mstate) (r : R),
  fst (runif (Minstd XRa) s) = Fin r ->
  Rabs (value (fst (runif (Minstd (F64 L)) s)) - r) <= powerRZ 2 (-51).
Proof.
  intros L s r E. destruct (canonical64 L (ms_val s) (ms_in s)) as (v & V & B & C).
  destruct (canonicalX (ms_val s) (ms_in s)) as (X & _).
  cbn [runif Minstd fst] in *. rewrite (is64_value _ _ V), pow_bpow.
  rewrite X in E. injection E as <-. exact C.
Qed.

(** Mean free paths. *)
Lemma ln_below y : 0 < y -> ln y <= y - 1.
Proof.
  intros H. rewrite <- (ln_exp (y - 1)). apply Rcomplements.ln_le; [exact H|].
  pose proof (exp_ineq1_le (y - 1)). lra.
Qed.
Lemma ln2_le : ln 2 <= 23 / 32.
Proof.
  apply Rle_trans with (ln ((65 / 64) ^ 46)); [apply Rcomplements.ln_le; lra|].
  rewrite ln_pow by lra. pose proof (ln_below (65 / 64)). simpl INR. lra.
Qed.
Lemma paths v : bpow radix2 (-32) <= v <= 1 - bpow radix2 (-32) ->
  bpow radix2 (-32) <= - ln v <= 23.
Proof.
  intros H. assert (B : bpow radix2 (-32) = / 4294967296) by reflexivity.
  split; [pose proof (ln_below v); lra|].
  assert (K : ln (/ 2 ^ 32) <= ln v) by (apply Rcomplements.ln_le; lra).
  rewrite ln_Rinv, ln_pow in K by lra. pose proof ln2_le. simpl INR in K. lra.
Qed.

Lemma C80_flight_exact_proof :
  forall (s : rst (Minstd XRa)) (sigma : R), 0 < sigma ->
  exists d, fst (exponential (Minstd XRa) (Fin sigma : num XRa) s) = Fin d
  /\ powerRZ 2 (-32) <= d * sigma <= 23.
Proof.
  intros s sigma Hs. destruct (canonicalX (ms_val s) (ms_in s)) as (X & B).
  set (e := sum_of _ _) in *. assert (R : IZR range * IZR range = 4611686009837453316) by (unfold range; lra).
  rewrite R in *. set (u := e / 4611686009837453316) in *.
  assert (U : u * 4611686009837453316 = e) by (unfold u; field).
  assert (P : bpow radix2 (-32) <= - ln (1 - u) <= 23).
  { apply paths. change (bpow radix2 (-32)) with (/ 4294967296). lra. }
  exists (- ln (1 - u) / sigma). rewrite pow_bpow. split.
  - unfold exponential. cbn [runif Minstd]. rewrite X.
    change (ndiv XRa) with xdiv. change (nsub XRa) with xsub. change (nopp XRa) with xopp.
    change (nlog XRa) with xlog. cbn [fst nofZ XRa xsub xadd xopp xlog].
    replace (1 + - u) with (1 - u) by ring.
    rewrite Rltb_true by lra. cbn [xopp]. rewrite xdiv_fin by lra. reflexivity.
  - replace (- ln (1 - u) / sigma * sigma) with (- ln (1 - u)) by (field; lra). exact P.
Qed.

(** A quotient of positive doubles may overflow but is never NaN. *)
Lemma div_positive x y r s : is64 x r -> is64 y s -> 0 < r -> 0 < s ->
  let q := SFdiv prec64 emax64 x y in
  is_double q /\ q <> S754_nan /\ SFleb (S754_zero false) q = true.
Proof.
  intros Hx Hy Pr Ps q. pose proof (is64_div x y r s Hx Hy (Rgt_not_eq _ _ Ps)) as D. fold q in D.
  destruct (Rlt_or_le (Rabs (rnd (r / s))) big) as [S|S].
  - specialize (D S). destruct (is64_double _ _ D) as (D1 & D2). split; [exact D1|].
    split; [intros E; now rewrite E in D2|].
    change (S754_zero false) with (f64_ofZ 0). rewrite (is64_leb _ _ 0 _ (is64_int 0 ltac:(lia)) D).
    apply Rle_bool_true. apply rnd_nonneg. apply div_nonneg; lra.
  - clear D. destruct Hx as (b & Eb & Fb & Vb). destruct Hy as (c & Ec & Fc & Vc).
    pose proof (Bdiv_correct 53 1024 prec_ok emax_ok mode_NE b c) as K. rewrite Vb, Vc in K.
    specialize (K (Rgt_not_eq _ _ Ps)). cbn [round_mode] in K. rewrite Rlt_bool_false in K by exact S.
    assert (Sb : Bsign b = false).
    { destruct b as [ | | |[] m e B]; try discriminate Fb; try reflexivity; cbn in Vb; subst r; [lra|].
      exfalso. apply (Rlt_asym _ _ Pr). exact (F2R_lt_0 radix2 (Float radix2 (Z.neg m) e) eq_refl). }
    assert (Sc : Bsign c = false).
    { destruct c as [ | | |[] m e B]; try discriminate Fc; try reflexivity; cbn in Vc; subst s; [lra|].
      exfalso. apply (Rlt_asym _ _ Ps). exact (F2R_lt_0 radix2 (Float radix2 (Z.neg m) e) eq_refl). }
    rewrite Sb, Sc in K. cbn in K.
    assert (Q : q = S754_infinity false) by (unfold q; rewrite Eb, Ec; etransitivity; [apply sf_div|exact K]).
    rewrite Q. repeat split; discriminate.
Qed.

(** One minus a uniform number. *)
Lemma rest64 (L : Libm) (s : mstate) :
  exists r, is64 (SFsub prec64 emax64 (f64_ofZ 1) (fst (runif (Minstd (F64 L)) s))) r
  /\ bpow radix2 (-32) <= r <= 1 - bpow radix2 (-32).
Proof.
  destruct (unif64 L s) as (u & U & B).
  assert (B32 : bpow radix2 (-32) = / 4294967296) by reflexivity.
  assert (K : bpow radix2 (-32) <= rnd (1 - u) <= 1 - bpow radix2 (-32)).
  { split; [apply rnd_ge_format; [apply bpow_format; lia|lra]|]. apply rnd_le_format; [|lra].
    rewrite fexp_flt. apply generic_format_FLT. exists (Float radix2 4294967295 (-32)).
    - unfold F2R. cbn [Fnum Fexp]. rewrite B32. lra.
    - cbn. lia.
    - cbn. lia. }
  exists (rnd (1 - u)). split; [|exact K].
  apply is64_sub; [exact (is64_int 1 ltac:(lia))|exact U|].
  rewrite Rabs_pos_eq by lra. apply Rle_lt_trans with 1; [lra|exact (bpow_lt radix2 0 1024 ltac:(lia))].
Qed.

Lemma log64 (L : Libm) (s : mstate) : log_accurate L ->
  exists r, is64 (SFopp (l_log L (SFsub prec64 emax64 (f64_ofZ 1) (fst (runif (Minstd (F64 L)) s))))) r
  /\ bpow radix2 (-33) <= r <= 47 / 2.
Proof.
  intros HL. destruct (rest64 L s) as (v & V & B). set (x := SFsub _ _ _ _) in *.
  destruct (is64_double _ _ V) as (D & F). pose proof (is64_value _ _ V) as Vx.
  assert (B32 : bpow radix2 (-32) = / 4294967296) by reflexivity.
  assert (B33 : bpow radix2 (-33) = / 8589934592) by reflexivity.
  destruct (HL x D F) as (D' & F' & E); [lra|]. rewrite Vx in E.
  pose proof (paths v B) as P. rewrite (Rabs_left (ln v)) in E by lra. apply Rabs_le_inv in E.
  exists (- value (l_log L x)). split; [|lra]. apply is64_opp. now apply double_is64.
Qed.

Lemma C80_flight_proof :
  forall (L : Libm) (s : rst (Minstd (F64 L))) (sigma : spec_float),
  log_accurate L -> is_double sigma -> finite sigma -> 0 < value sigma ->
  let d := fst (exponential (Minstd (F64 L)) sigma s) in
  is_double d /\ d <> S754_nan /\ SFleb (S754_zero false) d = true
  /\ (powerRZ 2 (-900) <= value sigma <= powerRZ 2 900 ->
      finite d /\ powerRZ 2 (-34) <= value d * value sigma <= 24).
Proof.
  intros L s sigma HL D F P d. destruct (log64 L s HL) as (g & G & B).
  assert (Ed : d = SFdiv prec64 emax64 (SFopp (l_log L (SFsub prec64 emax64 (f64_ofZ 1)
                     (fst (runif (Minstd (F64 L)) s))))) sigma) by reflexivity.
  set (x := SFopp _) in *. pose proof (double_is64 sigma D F) as S.
  assert (Pg : 0 < g) by (pose proof (bpow_gt_0 radix2 (-33)); lra).
  destruct (div_positive x sigma g (value sigma) G S Pg P) as (Q1 & Q2 & Q3). rewrite <- Ed in *.
  split; [exact Q1|]. split; [exact Q2|]. split; [exact Q3|].
  rewrite !pow_bpow. intros W. set (w := value sigma) in *.
  assert (I1 : bpow radix2 (-900) <= / w).
  { change (-900)%Z with (- (900))%Z. rewrite bpow_opp. apply Rinv_le_contravar; lra. }
  assert (I2 : / w <= bpow radix2 900).
  { rewrite <- (Rinv_inv (bpow radix2 900)), <- bpow_opp. apply Rinv_le_contravar; [apply bpow_gt_0|].
    apply W. }
  assert (Qlow : bpow radix2 (-1022) <= g / w).
  { apply Rle_trans with (bpow radix2 (-33) * bpow radix2 (-900)).
    - rewrite <- bpow_plus. apply bpow_le. lia.
    - apply Rmult_le_compat; try lra; apply bpow_ge_0. }
  assert (Qhigh : g / w <= bpow radix2 905).
  { apply Rle_trans with (bpow radix2 5 * bpow radix2 900).
    - assert (0 < / w) by now apply Rinv_0_lt_compat.
      apply Rmult_le_compat; try lra. change (bpow radix2 5) with 32. lra.
    - rewrite <- bpow_plus. apply bpow_le. lia. }
  assert (Q0 : 0 < g / w) by now apply Rdiv_lt_0_compat.
  assert (V : is64 d (rnd (g / w))).
  { rewrite Ed. apply is64_div; [exact G|exact S|lra|].
    apply rnd_small with 905%Z; [lia|]. rewrite Rabs_pos_eq; lra. }
  split; [apply (is64_double _ _ V)|]. rewrite (is64_value _ _ V).
  pose proof (rnd_rel (g / w)) as E. rewrite Rabs_pos_eq in E by lra. specialize (E Qlow).
  apply Rabs_le_inv in E. pose proof u53_small.
  assert (K : g / w * w = g) by (field; lra).
  assert (B33 : bpow radix2 (-33) = / 8589934592) by reflexivity.
  assert (B34 : bpow radix2 (-34) = / 17179869184) by reflexivity.
  set (q := g / w) in *. rewrite B34. rewrite B33 in *.
  assert (u53 * q * w <= g / 1024) by (rewrite Rmult_assoc, K; nra).
  nra.
Qed.

(** Isotropic directions. *)
Lemma small_big r : Rabs r <= 1 -> Rabs (rnd r) < big.
Proof.
  intros H. apply Rle_lt_trans with 1; [now apply rnd_unit|exact (bpow_lt radix2 0 1024 ltac:(lia))].
Qed.
Lemma square_close a b e : Rabs (a - b) <= e -> Rabs a <= 1 -> Rabs b <= 1 ->
  Rabs (a * a - b * b) <= 2 * e.
Proof.
  intros H A B. replace (a * a - b * b) with ((a - b) * (a + b)) by ring. rewrite Rabs_mult.
  rewrite Rmult_comm. apply Rmult_le_compat; try apply Rabs_pos; [|exact H].
  apply Rle_trans with (1 := Rabs_triang _ _). lra.
Qed.

Lemma angle64 (L : Libm) (s : mstate) : exists r,
  is64 (fst (uniform (Minstd (F64 L)) (f64_ofZ 0) (SFmul prec64 emax64 (f64_ofZ 2) (npi (F64 L))) s)) r.
Proof.
  destruct (unif64 L s) as (u & U & B).
  assert (W : exists w, is64 (SFsub prec64 emax64 (SFmul prec64 emax64 (f64_ofZ 2) (npi (F64 L))) (f64_ofZ 0)) w
    /\ 0 <= w <= 8).
  { set (x := SFsub _ _ _ _). vm_compute in x. exists (value x). split.
    - apply double_is64; [reflexivity|exact I].
    - subst x. unfold value. simpl. lra. }
  destruct W as (w & W & Bw).
  assert (B32 : bpow radix2 (-32) = / 4294967296) by reflexivity.
  assert (P : 0 <= u * w <= 8) by (split; nra).
  assert (F8 : format64 8) by exact (bpow_format 3 ltac:(lia)).
  assert (P' : 0 <= rnd (u * w) <= 8)
    by (split; [now apply rnd_nonneg|apply rnd_le_format; [exact F8|lra]]).
  exists (rnd (rnd (u * w) + 0)). unfold uniform. 
  destruct (runif (Minstd (F64 L)) s) as [x s'] eqn:E. cbn [fst] in *.
  apply is64_add; [apply is64_mul; [exact U|exact W|]|exact (is64_int 0 ltac:(lia))|].
  - apply (rnd_small _ 3); [lia|]. change (bpow radix2 3) with 8. rewrite Rabs_pos_eq; lra.
  - apply (rnd_small _ 3); [lia|]. change (bpow radix2 3) with 8. rewrite Rabs_pos_eq; lra.
Qed.

Lemma C80_isotropic_proof :
  forall (L : Libm) (delta : R) (s : rst (Minstd (F64 L))),
  bounded_turn L delta ->
  let d := fst (dir_isotropic (Minstd (F64 L)) s) in
  let x := value (px d) in let y := value (py d) in let z := value (pz d) in
  is_double (px d) /\ is_double (py d) /\ is_double (pz d)
  /\ finite (px d) /\ finite (py d) /\ finite (pz d)
  /\ Rabs x < 1 /\ Rabs y <= 1 /\ Rabs z <= 1
  /\ Rabs (x * x + y * y + z * z - 1) <= delta + powerRZ 2 (-49).
Proof.
  intros L delta s HL. destruct (unif64 L s) as (u & U & Bu).
  assert (B32 : bpow radix2 (-32) = / 4294967296) by reflexivity.
  assert (B31 : bpow radix2 (-31) = / 2147483648) by reflexivity.
  (* the cosine *)
  assert (Two : is64 (SFsub prec64 emax64 (f64_ofZ 1) (SFopp (f64_ofZ 1))) 2).
  { set (t := SFsub _ _ _ _). vm_compute in t. replace 2 with (value t).
    - apply double_is64; [reflexivity|exact I].
    - subst t. unfold value. simpl. lra. }
  assert (Fu : format64 (u * 2)).
  { assert (Fu : format64 u) by apply (is64_format _ _ U).
    rewrite fexp_flt in *. apply FLT_format_generic in Fu; [|reflexivity].
    destruct Fu as [f E1 E2 E3]. apply generic_format_FLT. exists (Float radix2 (Fnum f) (Fexp f + 1)).
    - rewrite E1. unfold F2R. cbn [Fnum Fexp]. rewrite bpow_plus. change (bpow radix2 1) with 2. ring.
    - exact E2.
    - cbn [Fexp]. lia. }
  assert (X2 : is64 (SFmul prec64 emax64 (fst (runif (Minstd (F64 L)) s))
                      (SFsub prec64 emax64 (f64_ofZ 1) (SFopp (f64_ofZ 1)))) (u * 2)).
  { rewrite <- (rnd_id _ Fu). apply is64_mul; [exact U|exact Two|].
    apply (rnd_small _ 1); [lia|]. change (bpow radix2 1) with 2. rewrite Rabs_pos_eq; lra. }
  set (x := rnd (u * 2 + -1)).
  assert (Fb : format64 (1 - bpow radix2 (-31))).
  { rewrite fexp_flt. apply generic_format_FLT. exists (Float radix2 2147483647 (-31)).
    - unfold F2R. cbn [Fnum Fexp]. rewrite B31. lra.
    - cbn. lia.
    - cbn. lia. }
  assert (Bx : - (1 - bpow radix2 (-31)) <= x <= 1 - bpow radix2 (-31)).
  { split; [apply rnd_ge_format; [now apply generic_format_opp|lra]|apply rnd_le_format; [exact Fb|lra]]. }
  assert (Ax : Rabs x <= 1) by (apply Rabs_le; lra).
  assert (One : is64 (SFopp (f64_ofZ 1)) (-1)) by (apply is64_opp; exact (is64_int 1 ltac:(lia))).
  assert (X : is64 (fst (uniform (Minstd (F64 L)) (SFopp (f64_ofZ 1)) (f64_ofZ 1) s)) x).
  { unfold uniform. destruct (runif (Minstd (F64 L)) s) as [u0 s'] eqn:Eu. cbn [fst] in *.
    apply is64_add; [exact X2|exact One|]. apply small_big. apply Rabs_le. lra. }
  (* the sine *)
  set (q := rnd (x * x)).
  assert (Bxx : 0 <= x * x <= 1) by (split; [apply Rle_0_sqr|nra]).
  assert (Q : is64 (SFmul prec64 emax64 (fst (uniform (Minstd (F64 L)) (SFopp (f64_ofZ 1)) (f64_ofZ 1) s))
                      (fst (uniform (Minstd (F64 L)) (SFopp (f64_ofZ 1)) (f64_ofZ 1) s))) q).
  { apply is64_mul; [exact X|exact X|]. apply small_big. rewrite Rabs_pos_eq; lra. }
  assert (F1 : format64 1) by exact (bpow_format 0 ltac:(lia)).
  assert (Bq : 0 <= q <= 1 - bpow radix2 (-31)).
  { split; [apply rnd_nonneg; lra|]. apply rnd_le_format; [exact Fb|]. rewrite B31 in *. nra. }
  assert (Eq : Rabs (q - x * x) <= u53) by (apply rnd_err; rewrite Rabs_pos_eq; lra).
  set (t := rnd (1 - q)).
  assert (Bt : bpow radix2 (-31) <= t <= 1).
  { split; [apply rnd_ge_format; [apply bpow_format; lia|lra]|apply rnd_le_format; [exact F1|lra]]. }
  assert (Et : Rabs (t - (1 - q)) <= u53).
  { apply rnd_err. rewrite Rabs_pos_eq; rewrite B31 in *; lra. }
  assert (T : is64 (SFsub prec64 emax64 (f64_ofZ 1)
      (SFmul prec64 emax64 (fst (uniform (Minstd (F64 L)) (SFopp (f64_ofZ 1)) (f64_ofZ 1) s))
                      (fst (uniform (Minstd (F64 L)) (SFopp (f64_ofZ 1)) (f64_ofZ 1) s)))) t).
  { apply is64_sub; [exact (is64_int 1 ltac:(lia))|exact Q|]. apply small_big.
    rewrite Rabs_pos_eq; rewrite B31 in *; lra. }
  assert (T0 : 0 < t) by (rewrite B31 in *; lra).
  set (st := rnd (sqrt t)).
  assert (Bs0 : 0 <= sqrt t <= 1).
  { split; [apply sqrt_pos|]. rewrite <- sqrt_1. apply sqrt_le_1; lra. }
  assert (Bs : 0 <= st <= 1) by (split; [apply rnd_nonneg; lra|apply rnd_le_format; [exact F1|lra]]).
  assert (Es : Rabs (st - sqrt t) <= u53) by (apply rnd_err; rewrite Rabs_pos_eq; lra).
  assert (S : is64 (SFsqrt prec64 emax64 (SFsub prec64 emax64 (f64_ofZ 1)
      (SFmul prec64 emax64 (fst (uniform (Minstd (F64 L)) (SFopp (f64_ofZ 1)) (f64_ofZ 1) s))
                      (fst (uniform (Minstd (F64 L)) (SFopp (f64_ofZ 1)) (f64_ofZ 1) s))))) st).
  { apply is64_sqrt; [exact T|lra]. }
  (* the azimuth *)
  destruct (angle64 L (snd (uniform (Minstd (F64 L)) (SFopp (f64_ofZ 1)) (f64_ofZ 1) s))) as (phi & Phi).
  intros d.
  assert (Ed : d = mkPoint (A := F64 L)
     (fst (uniform (Minstd (F64 L)) (SFopp (f64_ofZ 1)) (f64_ofZ 1) s))
     (SFmul prec64 emax64 (SFsqrt prec64 emax64 (SFsub prec64 emax64 (f64_ofZ 1)
      (SFmul prec64 emax64 (fst (uniform (Minstd (F64 L)) (SFopp (f64_ofZ 1)) (f64_ofZ 1) s))
                      (fst (uniform (Minstd (F64 L)) (SFopp (f64_ofZ 1)) (f64_ofZ 1) s)))))
       (l_cos L (fst (uniform (Minstd (F64 L)) (f64_ofZ 0) (SFmul prec64 emax64 (f64_ofZ 2) (npi (F64 L)))
          (snd (uniform (Minstd (F64 L)) (SFopp (f64_ofZ 1)) (f64_ofZ 1) s))))))
     (SFmul prec64 emax64 (SFsqrt prec64 emax64 (SFsub prec64 emax64 (f64_ofZ 1)
      (SFmul prec64 emax64 (fst (uniform (Minstd (F64 L)) (SFopp (f64_ofZ 1)) (f64_ofZ 1) s))
                      (fst (uniform (Minstd (F64 L)) (SFopp (f64_ofZ 1)) (f64_ofZ 1) s)))))
       (l_sin L (fst (uniform (Minstd (F64 L)) (f64_ofZ 0) (SFmul prec64 emax64 (f64_ofZ 2) (npi (F64 L)))
          (snd (uniform (Minstd (F64 L)) (SFopp (f64_ofZ 1)) (f64_ofZ 1) s))))))) by reflexivity.
  rewrite Ed. cbn [px py pz]. clear Ed d.
  set (ph := fst (uniform (Minstd (F64 L)) (f64_ofZ 0) _ _)) in *.
  set (xs := fst (uniform (Minstd (F64 L)) (SFopp _) _ _)) in *. set (ss := SFsqrt _ _ _) in *.
  destruct (is64_double _ _ Phi) as (Dp & Fp).
  destruct (HL ph Dp Fp) as (Dc & Fc & Ac & Dsi & Fsi & Asi & Cs).
  pose proof (double_is64 _ Dc Fc) as C. pose proof (double_is64 _ Dsi Fsi) as I'.
  set (c := value (l_cos L ph)) in *. set (si := value (l_sin L ph)) in *.
  assert (Ayc : Rabs (st * c) <= 1).
  { rewrite Rabs_mult, (Rabs_pos_eq st) by lra. pose proof (Rabs_pos c). nra. }
  assert (Ays : Rabs (st * si) <= 1).
  { rewrite Rabs_mult, (Rabs_pos_eq st) by lra. pose proof (Rabs_pos si). nra. }
  assert (Y : is64 (SFmul prec64 emax64 ss (l_cos L ph)) (rnd (st * c)))
    by (apply is64_mul; [exact S|exact C|now apply small_big]).
  assert (Z : is64 (SFmul prec64 emax64 ss (l_sin L ph)) (rnd (st * si)))
    by (apply is64_mul; [exact S|exact I'|now apply small_big]).
  cbv zeta. rewrite (is64_value _ _ X), (is64_value _ _ Y), (is64_value _ _ Z).
  destruct (is64_double _ _ X) as (Dx & Fx). destruct (is64_double _ _ Y) as (Dy & Fy).
  destruct (is64_double _ _ Z) as (Dz & Fz).
  do 6 (split; [assumption|]).
  split; [apply Rle_lt_trans with (1 - bpow radix2 (-31)); [apply Rabs_le; lra|rewrite B31; lra]|].
  split; [now apply rnd_unit|]. split; [now apply rnd_unit|].
  pose proof (square_close _ _ _ (rnd_err _ Ayc) (rnd_unit _ Ayc) Ayc) as K1.
  pose proof (square_close _ _ _ (rnd_err _ Ays) (rnd_unit _ Ays) Ays) as K2.
  assert (K3 : Rabs (st * st - sqrt t * sqrt t) <= 2 * u53).
  { apply square_close; [exact Es|rewrite Rabs_pos_eq; lra|rewrite Rabs_pos_eq; lra]. }
  rewrite sqrt_def in K3 by lra.
  assert (K4 : Rabs (st * st * (c * c + si * si - 1)) <= delta).
  { rewrite Rabs_mult, (Rabs_pos_eq (st * st)) by nra.
    pose proof (Rabs_pos (c * c + si * si - 1)) as A0. assert (B2 : 0 <= st * st <= 1) by nra.
    set (a := Rabs _) in *. nra. }
  rewrite pow_bpow. assert (B49 : bpow radix2 (-49) = 16 * u53) by (rewrite u53_val; cbn; lra).
  rewrite B49. pose proof u53_small.
  set (y := rnd (st * c)) in *. set (z := rnd (st * si)) in *.
  apply Rabs_le_inv in K1. apply Rabs_le_inv in K2. apply Rabs_le_inv in K3. apply Rabs_le_inv in K4.
  apply Rabs_le_inv in Et. apply Rabs_le_inv in Eq.
  replace (x * x + y * y + z * z - 1)
    with ((y * y - st * c * (st * c)) + (z * z - st * si * (st * si))
          + st * st * (c * c + si * si - 1) + (st * st - t) + (t - (1 - q)) - (q - x * x)) by ring.
  apply Rabs_le. lra.
Qed.
