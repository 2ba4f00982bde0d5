(** Bins in binary64: C79. *)
From Coq Require Import Bool String List ZArith NArith Reals Lra Lia SpecFloat.
From Flocq Require Import Core BinarySingleNaN Relative Plus_error.
From Verif Require Import Model.Num Model.Outcome Model.Xml Model.Std Model.Bins
  Spec.TextExt Spec.DoubleSpec Spec.BinsSpec Proofs.RealLib Proofs.BinsProofs Proofs.FloatLib Proofs.FloatReal.
Import ListNotations.
Local Open Scope R_scope.

Notation u53 := (bpow radix2 (-53)).
Lemma u53_val : u53 = / 9007199254740992.
Proof. reflexivity. Qed.

Lemma fexp_flt : SpecFloat.fexp 53 1024 = FLT_exp (-1074) 53.
Proof. reflexivity. Qed.

Lemma div_nonneg a b : 0 <= a -> 0 < b -> 0 <= a / b.
Proof. intros Ha Hb. apply Rmult_le_pos; [exact Ha|]. left. now apply Rinv_0_lt_compat. Qed.

(** The relative error of a difference of two doubles. *)
Lemma rnd_sub_rel r s : format64 r -> format64 s ->
  Rabs (rnd (r - s) - (r - s)) <= u53 * Rabs (r - s).
Proof.
  intros Fr Fs. assert (Fo : format64 (- s)) by now apply generic_format_opp.
  destruct (FLT_plus_error_N_ex radix2 (-1074) 53 (fun x => negb (Z.even x)) r (- s) Fr Fo)
    as (eps & He & E).
  change (r + - s) with (r - s) in E. rewrite fexp_flt. rewrite E.
  replace ((r - s) * (1 + eps) - (r - s)) with (eps * (r - s)) by ring. rewrite Rabs_mult.
  apply Rmult_le_compat_r; [apply Rabs_pos|]. apply (Rle_trans _ _ _ He).
  assert (U : u_ro radix2 53 = u53) by (unfold u_ro; rewrite u53_val; cbn; lra). rewrite U.
  pose proof u53_val as V. assert (0 < u53) by apply bpow_gt_0.
  apply Rmult_le_reg_r with (1 + u53); [lra|]. unfold Rdiv. rewrite Rmult_assoc, Rinv_l by lra. nra.
Qed.
Lemma rnd_rel r : bpow radix2 (-1022) <= Rabs r -> Rabs (rnd r - r) <= u53 * Rabs r.
Proof.
  intros H. pose proof (relative_error_N_FLT radix2 (-1074) 53 eq_refl (fun x => negb (Z.even x)) r) as K.
  replace (/ 2 * bpow radix2 (- (53) + 1)) with u53 in K by (rewrite u53_val; cbn; lra).
  now apply K.
Qed.

(** Multiples of one eighth are doubles, up to 2^50. *)
Lemma eighth_format z : (0 <= z <= 2 ^ 53)%Z -> format64 (IZR z / 8).
Proof.
  intros H. rewrite fexp_flt. destruct (Z.eq_dec z (2 ^ 53)) as [->|N].
  - replace (IZR (2 ^ 53) / 8) with (bpow radix2 50) by (cbn; lra). now apply bpow_format.
  - apply generic_format_FLT. exists (Float radix2 z (-3)).
    + unfold F2R. cbn. lra.
    + cbn [Fnum]. change (radix2 ^ 53)%Z with (2 ^ 53)%Z. lia.
    + cbn. lia.
Qed.
Lemma rnd_eighth x : 0 <= x -> x <= bpow radix2 49 -> Rabs (rnd x - x) <= 1 / 8.
Proof.
  intros H0 H. set (z := Zfloor (8 * x)).
  assert (L : IZR z <= 8 * x) by apply Zfloor_lb.
  assert (U : 8 * x < IZR z + 1) by apply Zfloor_ub.
  assert (Z0 : (0 <= z)%Z) by (apply Zfloor_lub; lra).
  assert (Z1 : (z < 2 ^ 53)%Z).
  { apply lt_IZR. apply Rle_lt_trans with (1 := L). change (bpow radix2 49) with (IZR (2 ^ 49)) in H.
    change (IZR (2 ^ 53)) with (16 * IZR (2 ^ 49))%R || replace (IZR (2 ^ 53)) with (16 * IZR (2 ^ 49)) by (rewrite <- mult_IZR; reflexivity).
    assert (0 < IZR (2 ^ 49)) by (apply IZR_lt; reflexivity). lra. }
  assert (A : IZR z / 8 <= rnd x) by (apply rnd_ge_format; [apply eighth_format; lia|lra]).
  assert (B : rnd x <= IZR (z + 1) / 8)
    by (apply rnd_le_format; [apply eighth_format; lia|rewrite plus_IZR; lra]).
  rewrite plus_IZR in B. apply Rabs_le. lra.
Qed.

(** ** The index of a value inside the bins *)
Section Linspace.
  Variables (rlo rhi : R) (n : N).
  Hypothesis Flo : format64 rlo.
  Hypothesis Fhi : format64 rhi.
  Hypothesis few : (1 <= n <= 2 ^ 48)%N.
  Hypothesis wide : bpow radix2 (-1021) <= (rhi - rlo) / IZR (Z.of_N n).
  Hypothesis narrow : rhi - rlo <= bpow radix2 1023.

  Let nb := IZR (Z.of_N n).
  Let T := rhi - rlo.
  Let D := rnd (rhi - rlo).
  Let W := rnd (D / nb).
  Lemma nb_bounds : 1 <= nb <= 281474976710656.
  Proof. unfold nb. split; [apply (IZR_le 1)|apply IZR_le]; lia. Qed.
  Lemma T_pos : 0 < T.
  Proof.
    pose proof nb_bounds. assert (0 < bpow radix2 (-1021)) by apply bpow_gt_0.
    assert (0 < T / nb) by (unfold T, nb; lra).
    replace T with (T / nb * nb) by (field; lra). nra.
  Qed.
  Lemma D_close : Rabs (D - T) <= u53 * T.
  Proof. pose proof T_pos. rewrite <- (Rabs_pos_eq T) at 2 by lra. now apply rnd_sub_rel. Qed.
  Lemma D_pos : T * (1 - u53) <= D <= T * (1 + u53).
  Proof. pose proof D_close as H. apply Rabs_le_inv in H. lra. Qed.
  Lemma W_close : Rabs (W - D / nb) <= u53 * (D / nb).
  Proof.
    pose proof D_pos. pose proof nb_bounds. pose proof T_pos. pose proof u53_val as V.
    assert (0 < / nb) by (apply Rinv_0_lt_compat; lra).
    assert (K : bpow radix2 (-1022) <= D / nb).
    { apply Rle_trans with (T / nb * (1 - u53)); [|unfold Rdiv; nra].
      replace (bpow radix2 (-1022)) with (bpow radix2 (-1021) / 2)
        by (change (-1022)%Z with (-1021 + -1)%Z; rewrite bpow_plus;
            change (bpow radix2 (-1)) with (/ 2); reflexivity).
      assert (0 < bpow radix2 (-1021)) by apply bpow_gt_0.
      change ((rhi - rlo) / IZR (Z.of_N n)) with (T / nb) in wide. rewrite V. nra. }
    assert (0 < bpow radix2 (-1022)) by apply bpow_gt_0.
    rewrite <- (Rabs_pos_eq (D / nb)) at 2 by lra. apply rnd_rel. rewrite Rabs_pos_eq; lra.
  Qed.
  Lemma W_pos : 0 < W /\ D / nb * (1 - u53) <= W <= D / nb * (1 + u53).
  Proof.
    pose proof W_close as H. apply Rabs_le_inv in H. pose proof D_pos. pose proof T_pos.
    pose proof nb_bounds. pose proof u53_val as V.
    assert (0 < D / nb) by (apply Rdiv_lt_0_compat; nra). split; [|lra]. rewrite V in *. nra.
  Qed.

  (** The exact position of a value, in bins. *)
  Definition place (v : R) : R := (v - rlo) / T * nb.
  Definition place64 (v : R) : R := rnd (rnd (rnd (v - rlo) / W) + 1).

  Lemma quotient_close v : format64 v -> rlo <= v < rhi ->
    Rabs (rnd (v - rlo) / W - place v) <= 1 / 8 /\ 0 <= rnd (v - rlo) / W.
  Proof.
    intros Fv Hv. pose proof T_pos as HT. pose proof nb_bounds as HN. pose proof D_pos as HD.
    destruct W_pos as [WP HW]. pose proof u53_val as V.
    pose proof (rnd_sub_rel v rlo Fv Flo) as Ha. rewrite (Rabs_pos_eq (v - rlo)) in Ha by lra.
    set (x := v - rlo) in *. set (a := rnd x) in *. apply Rabs_le_inv in Ha.
    assert (Hx : 0 <= x < T) by (unfold x, T; lra).
    assert (Ha0 : 0 <= a) by (apply rnd_nonneg; lra).
    split; [|apply div_nonneg; lra].
    assert (E : place v = x / T * nb) by reflexivity. rewrite E.
    assert (HP : 0 <= x / T * nb <= nb).
    { assert (0 <= x / T <= 1).
      { split; [apply div_nonneg; lra|]. apply Rmult_le_reg_r with T; auto.
        unfold Rdiv. rewrite Rmult_assoc, Rinv_l; lra. }
      nra. }
    set (p := x / T * nb) in *.
    assert (Ex : x * nb = p * T) by (unfold p; field; lra).
    (* W nb lies within (1 - u)^2 and (1 + u)^2 of T *)
    assert (W1 : T * (1 - u53) * (1 - u53) <= W * nb).
    { apply Rle_trans with (D * (1 - u53)); [apply Rmult_le_compat_r; [rewrite V|]; lra|].
      replace (D * (1 - u53)) with (D / nb * (1 - u53) * nb) by (field; lra).
      apply Rmult_le_compat_r; lra. }
    assert (W2 : W * nb <= T * (1 + u53) * (1 + u53)).
    { apply Rle_trans with (D * (1 + u53)); [|apply Rmult_le_compat_r; [rewrite V|]; lra].
      replace (D * (1 + u53)) with (D / nb * (1 + u53) * nb) by (field; lra).
      apply Rmult_le_compat_r; lra. }
    assert (Q : a / W = a * nb / (W * nb)) by (field; lra). rewrite Q.
    assert (WN : 0 < W * nb) by nra. set (w := W * nb) in *.
    assert (B1 : a * nb <= p * T * (1 + u53)).
    { rewrite <- Ex. replace (x * nb * (1 + u53)) with ((x + u53 * x) * nb) by ring.
      apply Rmult_le_compat_r; lra. }
    assert (B2 : p * T * (1 - u53) <= a * nb).
    { rewrite <- Ex. replace (x * nb * (1 - u53)) with ((x - u53 * x) * nb) by ring.
      apply Rmult_le_compat_r; lra. }
    apply Rabs_le. split.
    - (* p - 1/8 <= a nb / w *)
      apply Rmult_le_reg_r with w; auto. unfold Rdiv at 2.
      replace ((- (1 / 8)) * w) with (- (w / 8)) by field.
      replace ((a * nb * / w - p) * w) with (a * nb - p * w) by (field; lra).
      assert (p * w <= p * (T * (1 + u53) * (1 + u53))) by (apply Rmult_le_compat_l; lra).
      assert (p * T * (3 * u53 + u53 * u53) <= T * (1 - u53) * (1 - u53) / 8).
      { rewrite V. assert (p * T <= 281474976710656 * T) by nra. lra. }
      nra.
    - apply Rmult_le_reg_r with w; auto. unfold Rdiv at 1.
      replace ((a * nb * / w - p) * w) with (a * nb - p * w) by (field; lra).
      assert (p * (T * (1 - u53) * (1 - u53)) <= p * w) by (apply Rmult_le_compat_l; lra).
      assert (p * T * (3 * u53) <= T * (1 - u53) * (1 - u53) / 8).
      { rewrite V. assert (p * T <= 281474976710656 * T) by nra. lra. }
      assert (0 <= p * T * (u53 * u53)) by (rewrite V; nra).
      lra || nra.
  Qed.

  Lemma place_close v : format64 v -> rlo <= v < rhi ->
    Rabs (place64 v - (place v + 1)) <= 3 / 8 /\ 1 <= place64 v /\ place64 v <= nb + 11 / 8.
  Proof.
    intros Fv Hv. destruct (quotient_close v Fv Hv) as [Hq Q0]. apply Rabs_le_inv in Hq.
    pose proof nb_bounds as HN. pose proof T_pos as HT.
    assert (HP : 0 <= place v <= nb).
    { unfold place. assert (0 <= (v - rlo) / T <= 1).
      { split; [apply div_nonneg; lra|]. apply Rmult_le_reg_r with T; auto.
        unfold Rdiv. rewrite Rmult_assoc, Rinv_l; unfold T in *; lra. }
      nra. }
    unfold place64. set (q := rnd (v - rlo) / W) in *.
    assert (B49 : bpow radix2 49 = 562949953421312) by (cbn; lra).
    pose proof (rnd_eighth q Q0 ltac:(rewrite B49; lra)) as Hr. apply Rabs_le_inv in Hr.
    assert (R0 : 0 <= rnd q) by now apply rnd_nonneg.
    pose proof (rnd_eighth (rnd q + 1) ltac:(lra) ltac:(rewrite B49; lra)) as Hs. apply Rabs_le_inv in Hs.
    assert (1 <= rnd (rnd q + 1)).
    { apply rnd_ge_format; [|lra]. apply (int_format 1). cbn. lia. }
    split; [apply Rabs_le; lra|]. lra.
  Qed.

  Lemma place_mono v v' : v <= v' -> place64 v <= place64 v'.
  Proof.
    intros H. destruct W_pos as [WP _]. unfold place64. apply rnd_le.
    apply Rplus_le_compat_r. apply rnd_le. apply Rmult_le_compat_r; [left; now apply Rinv_0_lt_compat|].
    apply rnd_le. lra.
  Qed.

  Lemma D_small : Rabs D < big.
  Proof.
    pose proof T_pos. apply (rnd_small _ 1023); [lia|]. fold T. rewrite Rabs_pos_eq; [exact narrow|lra].
  Qed.
  Lemma W_small : Rabs W < big.
  Proof.
    pose proof T_pos as HT. pose proof D_pos as HD. pose proof nb_bounds as HN. pose proof u53_val as V.
    apply (rnd_small _ 1023); [lia|].
    assert (0 < D) by nra. assert (D <= bpow radix2 1023).
    { apply rnd_le_format; [now apply bpow_format|exact narrow]. }
    rewrite Rabs_pos_eq by (apply div_nonneg; lra).
    apply Rle_trans with (2 := H0). apply Rmult_le_reg_r with nb; [lra|].
    unfold Rdiv. rewrite Rmult_assoc, Rinv_l; nra.
  Qed.
End Linspace.

(** ** Bins of doubles *)
Local Open Scope string_scope.
Lemma not_finite v : is_double v -> v <> S754_nan -> finite v \/ exists s, v = S754_infinity s.
Proof. intros _ N. destruct v; cbn; eauto. Qed.
Lemma inf_ltb s y r : is64 y r -> SFltb (S754_infinity s) y = s.
Proof. intros (b & -> & F & _). destruct b as [z|z| |z m e B]; try discriminate F; now destruct s. Qed.
Lemma leb_inf s y r : is64 y r -> SFleb y (S754_infinity s) = negb s.
Proof. intros (b & -> & F & _). destruct b as [z|z| |z m e B]; try discriminate F; now destruct s, z. Qed.
Lemma inf_leb s y r : is64 y r -> SFleb (S754_infinity s) y = s.
Proof. intros (b & -> & F & _). destruct b as [z|z| |z m e B]; try discriminate F; now destruct s, z. Qed.

Section Made.
  Variables (L : Libm) (n : N) (lo hi : spec_float).
  Notation A := (F64 L).
  Hypothesis Dlo : is_double lo.
  Hypothesis Dhi : is_double hi.
  Hypothesis Nlo : finite lo.
  Hypothesis Nhi : finite hi.
  Hypothesis few : (1 <= n <= 2 ^ 48)%N.
  Hypothesis wide : powerRZ 2 (-1021) <= (value hi - value lo) / IZR (Z.of_N n).
  Hypothesis narrow : value hi - value lo <= powerRZ 2 1023.

  Let wide' : bpow radix2 (-1021) <= (value hi - value lo) / IZR (Z.of_N n).
  Proof. rewrite bpow_powerRZ. exact wide. Qed.
  Let narrow' : value hi - value lo <= bpow radix2 1023.
  Proof. rewrite bpow_powerRZ. exact narrow. Qed.
  Let Rlo := double_is64 lo Dlo Nlo.
  Let Rhi := double_is64 hi Dhi Nhi.
  Let Flo := is64_format _ _ Rlo.
  Let Fhi := is64_format _ _ Rhi.
  Let nb := IZR (Z.of_N n).
  Let W := rnd (rnd (value hi - value lo) / nb).
  Definition width64 : spec_float :=
    SFdiv prec64 emax64 (SFsub prec64 emax64 hi lo) (f64_ofZ (Z.of_N n)).

  Lemma lo_hi : value lo < value hi.
  Proof. pose proof (T_pos (value lo) (value hi) n few wide'). lra. Qed.
  Lemma n_int : is64 (f64_ofZ (Z.of_N n)) nb.
  Proof. apply is64_int. change (2 ^ 53)%Z with 9007199254740992%Z. destruct few as [_ H].
    change (2 ^ 48)%N with 281474976710656%N in H. lia. Qed.
  Lemma width_is : is64 width64 W.
  Proof.
    unfold width64, W. apply is64_div.
    - apply is64_sub; auto. apply (D_small (value lo) (value hi) n few wide' narrow').
    - apply n_int.
    - pose proof (nb_bounds n few). unfold nb. lra.
    - apply (W_small (value lo) (value hi) n Flo Fhi few wide' narrow').
  Qed.
  Lemma made path : make_linspace (A := A) path n lo hi = Ok (LinspaceBins (A := A) (n + 2) lo hi width64).
  Proof.
    destruct few as [F1 F2]. change (2 ^ 48)%N with 281474976710656%N in F2.
    unfold make_linspace. rewrite wrap64_small by lia. rewrite sub64_small by lia.
    replace (n + 2 - 2)%N with n by lia. cbn [nleb F64]. rewrite (is64_leb hi lo _ _ Rhi Rlo).
    rewrite Rle_bool_false by apply lo_hi. reflexivity.
  Qed.
  Notation made_bins := (LinspaceBins (A := A) (n + 2) lo hi width64).

  Lemma index_below (v : spec_float) : SFltb v lo = true -> bins_index made_bins v = Ok 0%N.
  Proof. intros H. cbn [bins_index nltb F64]. now rewrite H. Qed.
  Lemma index_above (v : spec_float) : SFltb v lo = false -> SFleb hi v = true ->
    bins_index made_bins v = Ok (n + 1)%N.
  Proof.
    intros H K. cbn [bins_index nltb nleb F64]. rewrite H, K. destruct few as [F1 F2].
    change (2 ^ 48)%N with 281474976710656%N in F2. rewrite sub64_small by lia. f_equal. lia.
  Qed.
  Lemma index_inside (v : spec_float) r : is64 v r -> value lo <= r < value hi ->
    bins_index made_bins v = Ok (Z.to_N (Zfloor (place64 (value lo) (value hi) n r))).
  Proof.
    intros Hv Hr. cbn [bins_index nltb nleb F64].
    rewrite (is64_ltb v lo _ _ Hv Rlo), (is64_leb hi v _ _ Rhi Hv).
    rewrite Rlt_bool_false by lra. rewrite Rle_bool_false by lra.
    pose proof (is64_format _ _ Hv) as Fv.
    pose proof (nb_bounds n few) as HN.
    destruct (place_close (value lo) (value hi) n Flo Fhi few wide' r Fv Hr) as (_ & P1 & P2).
    destruct (quotient_close (value lo) (value hi) n Flo Fhi few wide' r Fv Hr) as (Q1 & Q2).
    destruct (W_pos (value lo) (value hi) n Flo Fhi few wide') as [WP _].
    assert (HP : 0 <= place (value lo) (value hi) n r <= nb).
    { pose proof (T_pos (value lo) (value hi) n few wide') as HT. unfold place, nb in *.
      assert (0 <= (r - value lo) / (value hi - value lo) <= 1).
      { split; [apply div_nonneg; lra|]. apply Rmult_le_reg_r with (value hi - value lo); [lra|].
        unfold Rdiv. rewrite Rmult_assoc, Rinv_l; lra. }
      nra. }
    apply Rabs_le_inv in Q1.
    assert (B49 : bpow radix2 49 = 562949953421312) by (cbn; lra).
    assert (S1 : is64 (SFsub prec64 emax64 v lo) (rnd (r - value lo))).
    { apply is64_sub; auto. apply (rnd_small _ 1023); [lia|]. rewrite Rabs_pos_eq by lra.
      pose proof narrow'. lra. }
    assert (S2 : is64 (SFdiv prec64 emax64 (SFsub prec64 emax64 v lo) width64)
                      (rnd (rnd (r - value lo) / W))).
    { apply is64_div; auto using width_is; [unfold W, nb; lra|]. apply (rnd_small _ 49); [lia|].
      fold nb in Q1, Q2, HN. fold W in Q1, Q2. rewrite Rabs_pos_eq by exact Q2. rewrite B49. lra. }
    assert (B64 : IZR (2 ^ 64) = 18446744073709551616) by reflexivity.
    assert (S3 : is64 (SFadd prec64 emax64 (SFdiv prec64 emax64 (SFsub prec64 emax64 v lo) width64)
                        (f64_ofZ 1)) (place64 (value lo) (value hi) n r)).
    { apply is64_add; auto; [apply (is64_int 1); cbn; lia|].
      fold nb. change (Rabs (place64 (value lo) (value hi) n r) < big).
      apply Rle_lt_trans with (bpow radix2 49); [|now apply bpow_lt].
      rewrite Rabs_pos_eq by lra. rewrite B49. lra. }
    unfold to_index. cbn [ntoN F64 nadd ndiv nsub nofZ].
    rewrite (is64_toN _ _ S3); [reflexivity|]. rewrite B64. lra.
  Qed.

  Lemma floor_range r : format64 r -> value lo <= r < value hi ->
    (1 <= Zfloor (place64 (value lo) (value hi) n r) <= Z.of_N n + 1)%Z.
  Proof.
    intros Fr Hr. destruct (place_close (value lo) (value hi) n Flo Fhi few wide' r Fr Hr) as (_ & P1 & P2).
    split; [now apply Zfloor_lub|]. apply Z.lt_succ_r. apply lt_IZR.
    apply Rle_lt_trans with (1 := Zfloor_lb _). unfold Z.succ. rewrite !plus_IZR. lra.
  Qed.

  (** The cases of a value. *)
  Lemma index_cases (v : spec_float) : is_double v -> v <> S754_nan ->
    (SFltb v lo = true /\ bins_index made_bins v = Ok 0%N)
    \/ (SFltb v lo = false /\ SFleb hi v = true /\ bins_index made_bins v = Ok (n + 1)%N)
    \/ (SFltb v lo = false /\ SFleb hi v = false /\ finite v /\ value lo <= value v < value hi
        /\ bins_index made_bins v = Ok (Z.to_N (Zfloor (place64 (value lo) (value hi) n (value v))))).
  Proof.
    intros Dv Nv. destruct (SFltb v lo) eqn:B; [left; auto using index_below|].
    destruct (SFleb hi v) eqn:C; [right; left; auto using index_above|]. right; right.
    destruct (not_finite v Dv Nv) as [Fv|(s & ->)].
    - pose proof (double_is64 v Dv Fv) as Hv.
      rewrite (is64_ltb v lo _ _ Hv Rlo) in B. rewrite (is64_leb hi v _ _ Rhi Hv) in C.
      assert (value lo <= value v < value hi).
      { revert B C. destruct (Rlt_bool_spec (value v) (value lo)), (Rle_bool_spec (value hi) (value v));
          try discriminate. lra. }
      repeat split; auto using index_inside; lra.
    - rewrite (inf_ltb s lo _ Rlo) in B. rewrite (leb_inf s hi _ Rhi) in C. destruct s; discriminate.
  Qed.

  Lemma made_range (v : spec_float) : is_double v -> v <> S754_nan ->
    exists i, bins_index made_bins v = Ok i /\ (i < n + 2)%N
      /\ (i = 0%N <-> SFltb v lo = true) /\ (SFleb hi v = true -> i = n + 1)%N.
  Proof.
    intros Dv Nv. pose proof lo_hi as LH.
    destruct (index_cases v Dv Nv) as [[B E]|[(B & C & E)|(B & C & Fv & Hv & E)]];
      rewrite E; eexists; (split; [reflexivity|]).
    - repeat split; auto; try lia. intros C. exfalso.
      destruct (not_finite v Dv Nv) as [Fv|(s & ->)].
      + pose proof (double_is64 v Dv Fv) as Hv.
        rewrite (is64_ltb v lo _ _ Hv Rlo) in B. rewrite (is64_leb hi v _ _ Rhi Hv) in C.
        revert B C. destruct (Rlt_bool_spec (value v) (value lo)), (Rle_bool_spec (value hi) (value v));
          try discriminate. lra.
      + rewrite (inf_ltb s lo _ Rlo) in B. rewrite (leb_inf s hi _ Rhi) in C. destruct s; discriminate.
    - rewrite B. repeat split; try discriminate; lia.
    - rewrite B, C. pose proof (floor_range _ (is64_format _ _ (double_is64 v Dv Fv)) Hv).
      repeat split; try discriminate; lia.
  Qed.

  Lemma made_mono (v v' : spec_float) i i' : is_double v -> is_double v' -> SFleb v v' = true ->
    bins_index made_bins v = Ok i -> bins_index made_bins v' = Ok i' -> (i <= i')%N.
  Proof.
    intros Dv Dv' Le E E'. assert (Nv : v <> S754_nan) by (intros ->; discriminate).
    assert (Nv' : v' <> S754_nan) by (intros ->; destruct v as [?|[]| |[] ? ?]; discriminate).
    destruct (made_range v Dv Nv) as (j & Ej & Rj & Bj & _). rewrite E in Ej. injection Ej as <-.
    destruct (made_range v' Dv' Nv') as (j & Ej & Rj' & Bj' & Cj'). rewrite E' in Ej. injection Ej as <-.
    destruct (index_cases v' Dv' Nv') as [[B K]|[(B & C & K)|(B & C & Fv' & Hv' & K)]].
    - (* v' is below: so is v *)
      enough (i = 0%N) by lia. apply Bj.
      destruct (not_finite v' Dv' Nv') as [Fv'|(s' & ->)].
      + pose proof (double_is64 v' Dv' Fv') as Hv'.
        destruct (not_finite v Dv Nv) as [Fv|(s & ->)].
        * pose proof (double_is64 v Dv Fv) as Hv.
          rewrite (is64_ltb v lo _ _ Hv Rlo). rewrite (is64_ltb v' lo _ _ Hv' Rlo) in B.
          rewrite (is64_leb v v' _ _ Hv Hv') in Le. apply Rlt_bool_true.
          revert B Le. destruct (Rlt_bool_spec (value v') (value lo)), (Rle_bool_spec (value v) (value v'));
            try discriminate. lra.
        * rewrite (inf_leb s v' _ Hv') in Le. rewrite (inf_ltb s lo _ Rlo). exact Le.
      + rewrite (inf_ltb s' lo _ Rlo) in B. subst s'.
        destruct v as [?|[]| |[] ? ?]; try discriminate Le. exact (inf_ltb true lo _ Rlo).
    - rewrite K in E'. injection E' as <-. lia.
    - destruct (index_cases v Dv Nv) as [[B1 K1]|[(B1 & C1 & K1)|(B1 & C1 & Fv & Hv & K1)]].
      + rewrite K1 in E. injection E as <-. lia.
      + exfalso. pose proof (double_is64 v' Dv' Fv') as Rv'.
        destruct (not_finite v Dv Nv) as [Fv|(s & ->)].
        * pose proof (double_is64 v Dv Fv) as Rv. rewrite (is64_leb hi v _ _ Rhi Rv) in C1.
          rewrite (is64_leb v v' _ _ Rv Rv') in Le.
          revert C1 Le. destruct (Rle_bool_spec (value hi) (value v)), (Rle_bool_spec (value v) (value v'));
            try discriminate. lra.
        * rewrite (inf_leb s v' _ Rv') in Le. rewrite (leb_inf s hi _ Rhi) in C1. destruct s; discriminate.
      + rewrite K in E'. rewrite K1 in E. injection E' as <-. injection E as <-.
        pose proof (double_is64 v' Dv' Fv') as Rv'. pose proof (double_is64 v Dv Fv) as Rv.
        rewrite (is64_leb v v' _ _ Rv Rv') in Le.
        assert (value v <= value v') by (destruct (Rle_bool_spec (value v) (value v')); [auto|discriminate]).
        apply Z2N.inj_le.
        * pose proof (floor_range _ (is64_format _ _ Rv) Hv). lia.
        * pose proof (floor_range _ (is64_format _ _ Rv') Hv'). lia.
        * apply Zfloor_le. now apply (place_mono _ _ _ Flo Fhi few wide').
  Qed.

  Lemma made_close (v : spec_float) i : is_double v -> finite v -> bins_index made_bins v = Ok i ->
    let exact := N.of_nat (count_le (lin_boundary (value lo) (value hi) n) (S (N.to_nat n)) (value v)) in
    (i <= exact + 1)%N /\ (exact <= i + 1)%N.
  Proof.
    intros Dv Fv E exact. pose proof (double_is64 v Dv Fv) as Rv. pose proof lo_hi as LH.
    assert (Nv : v <> S754_nan) by (intros ->; destruct Fv).
    pose proof few as [F1 F2]. change (2 ^ 48)%N with 281474976710656%N in F2.
    pose proof (lin_index (value lo) (value hi) n (value v) LH F1 ltac:(lia)) as K. cbv zeta in K.
    fold exact in K.
    destruct (index_cases v Dv Nv) as [[B E']|[(B & C & E')|(B & C & _ & Hv & E')]];
      rewrite E' in E; injection E as <-.
    - rewrite (is64_ltb v lo _ _ Rv Rlo) in B.
      revert B. destruct (Rlt_bool_spec (value v) (value lo)) as [Hl|Hl]; [|discriminate]. intros _.
      rewrite (Rltb_true (value v) (value lo) Hl) in K. injection K as K. lia.
    - rewrite (is64_ltb v lo _ _ Rv Rlo) in B. rewrite (is64_leb hi v _ _ Rhi Rv) in C.
      revert B C. destruct (Rlt_bool_spec (value v) (value lo)) as [Hl|Hl]; [discriminate|].
      destruct (Rle_bool_spec (value hi) (value v)) as [Hh|Hh]; [|discriminate]. intros _ _.
      rewrite Rltb_false in K by lra. rewrite Rleb_true in K by lra. rewrite sub64_small in K by lia.
      injection K as K. lia.
    - rewrite Rltb_false in K by lra. rewrite Rleb_false in K by lra.
      pose proof (nb_bounds n few) as HN.
      pose proof (is64_format _ _ Rv) as Fr.
      destruct (place_close (value lo) (value hi) n Flo Fhi few wide' (value v) Fr Hv) as (P0 & P1 & P2).
      apply Rabs_le_inv in P0.
      replace ((value v - value lo) / ((value hi - value lo) / IZR (Z.of_N n)))
        with (place (value lo) (value hi) n (value v)) in K by (unfold place; field; lra).
      set (p := place _ _ _ _) in *. set (q := place64 _ _ _ _) in *.
      assert (B64 : IZR (2 ^ 64) = 18446744073709551616) by reflexivity.
      assert (0 <= p).
      { unfold p, place. apply Rmult_le_pos; [apply div_nonneg; lra|lra]. }
      rewrite to_index_fin in K by (rewrite B64; lra). injection K as K. rewrite <- K.
      pose proof (base_Int_part (p + 1)) as [I1 I2]. set (z := Int_part (p + 1)) in *.
      pose proof (Zfloor_lb q). pose proof (Zfloor_ub q). set (y := Zfloor q) in *.
      assert (Y1 : (y < z + 2)%Z) by (apply lt_IZR; rewrite plus_IZR; lra).
      assert (Y2 : (z < y + 2)%Z) by (apply lt_IZR; rewrite plus_IZR; lra).
      assert (0 < z)%Z by (apply lt_IZR; lra). assert (0 < y)%Z by (apply lt_IZR; lra). lia.
  Qed.
End Made.

Lemma C79_linspace_proof :
  forall (L : Libm) (X : Ext (F64 L)) (nd : node) (n : N) (lo hi : spec_float),
    n_name nd = "linspace" ->
    as_ullong X (n_attr nd "bins") = n ->
    as_double X (n_attr nd "min") = lo ->
    as_double X (n_attr nd "max") = hi ->
    is_double lo -> is_double hi -> finite lo -> finite hi ->
    (1 <= n <= 2 ^ 48)%N ->
    powerRZ 2 (-1021) <= (value hi - value lo) / IZR (Z.of_N n) ->
    value hi - value lo <= powerRZ 2 1023 ->
    exists b,
      bins_create X nd = Ok b
      /\ bins_size b = (n + 2)%N
      /\ (forall v, is_double v -> v <> S754_nan -> exists i,
            bins_index b v = Ok i /\ (i < bins_size b)%N
            /\ (i = 0%N <-> SFltb v lo = true) /\ (SFleb hi v = true -> i = n + 1)%N)
      /\ (forall v w i j, is_double v -> is_double w -> SFleb v w = true ->
            bins_index b v = Ok i -> bins_index b w = Ok j -> (i <= j)%N)
      /\ (forall v i, is_double v -> finite v -> bins_index b v = Ok i ->
            let exact := N.of_nat (count_le (lin_boundary (value lo) (value hi) n)
                                            (S (N.to_nat n)) (value v)) in
            (i <= exact + 1)%N /\ (exact <= i + 1)%N).
Proof.
  intros L X nd n lo hi Hn Hb Hlo Hhi Dlo Dhi Nlo Nhi few wide narrow.
  exists (LinspaceBins (A := F64 L) (n + 2) lo hi (width64 n lo hi)).
  split.
  { unfold bins_create. rewrite Hn, Hb. cbn [String.eqb Ascii.eqb Bool.eqb]. rewrite Hlo, Hhi.
    now apply made. }
  split; [reflexivity|]. split; [intros; now apply made_range|].
  split; [intros v w i j; now apply made_mono|intros v i; now apply made_close].
Qed.

Lemma C79_logspace_proof :
  forall (L : Libm) (X : Ext (F64 L)) (nd : node) (n : N) (base lo hi : spec_float),
    n_name nd = "logspace" ->
    as_ullong X (n_attr nd "bins") = n ->
    as_double_def X (n_attr nd "base") (f64_ofZ 10) = base ->
    as_double X (n_attr nd "min") = lo ->
    as_double X (n_attr nd "max") = hi ->
    is_double lo -> is_double hi -> finite lo -> finite hi ->
    (1 <= n <= 2 ^ 48)%N ->
    powerRZ 2 (-1021) <= (value hi - value lo) / IZR (Z.of_N n) ->
    value hi - value lo <= powerRZ 2 1023 ->
    let exponent v := SFdiv prec64 emax64 (l_log L v) (l_log L base) in
    exists b,
      bins_create X nd = Ok b
      /\ bins_size b = (n + 2)%N
      /\ (forall v, is_double (exponent v) -> exponent v <> S754_nan -> exists i,
            bins_index b v = Ok i /\ (i < bins_size b)%N
            /\ (i = 0%N <-> SFltb (exponent v) lo = true)
            /\ (SFleb hi (exponent v) = true -> i = n + 1)%N)
      /\ (forall v w i j, is_double (exponent v) -> is_double (exponent w) ->
            SFleb (exponent v) (exponent w) = true ->
            bins_index b v = Ok i -> bins_index b w = Ok j -> (i <= j)%N).
Proof.
  intros L X nd n base lo hi Hn Hb Hbase Hlo Hhi Dlo Dhi Nlo Nhi few wide narrow exponent.
  pose proof (made L n lo hi Dlo Dhi Nlo Nhi few wide (n_path nd)) as M.
  exists (LogspaceBins (A := F64 L) (n + 2) base lo hi (width64 n lo hi)).
  assert (I : forall v, bins_index (LogspaceBins (A := F64 L) (n + 2) base lo hi (width64 n lo hi)) v
    = bins_index (LinspaceBins (A := F64 L) (n + 2) lo hi (width64 n lo hi)) (exponent v))
    by reflexivity.
  split.
  { unfold bins_create. rewrite Hn, Hb. cbn [String.eqb Ascii.eqb Bool.eqb]. rewrite Hlo, Hhi.
    unfold make_linspace in M. unfold make_logspace. cbn [nofZ F64] in *. rewrite Hbase.
    destruct (nleb (F64 L) hi lo); [discriminate M|]. injection M as M1 M2.
    f_equal. f_equal; [exact M1|exact M2]. }
  split; [reflexivity|]. split.
  - intros v Dv Nv. rewrite I. now apply made_range.
  - intros v w i j. rewrite !I. now apply made_mono.
Qed.

(** A linspace element that is built, with the numbers its text reads as. *)
Lemma spelled (L : Libm) (nd : node) (n : N) (lo hi : spec_float) :
  n_name nd = "linspace" ->
  as_ullong (text_ext (F64 L) []) (n_attr nd "bins") = n ->
  as_double (text_ext (F64 L) []) (n_attr nd "min") = lo ->
  as_double (text_ext (F64 L) []) (n_attr nd "max") = hi ->
  SFleb hi lo = false -> wrap64 (n + 2) = (n + 2)%N -> sub64 (n + 2) 2 = n ->
  bins_create (text_ext (F64 L) []) nd
  = Ok (LinspaceBins (A := F64 L) (n + 2) lo hi (width64 n lo hi)).
Proof.
  intros Hn Hb Hlo Hhi Lt W S. unfold bins_create. rewrite Hn, Hb.
  cbn [String.eqb Ascii.eqb Bool.eqb]. rewrite Hlo, Hhi. unfold make_linspace.
  cbn [nleb F64]. rewrite Lt, W, S. reflexivity.
Qed.

Lemma C79_overflow_bin_refuted_proof :
  forall L : Libm, exists (X : Ext (F64 L)) (nd : node) (b : bins (F64 L)) (v : spec_float) (i : N),
  let hi := as_double X (n_attr nd "max") in
  n_name nd = "linspace" /\ bins_create X nd = Ok b /\ is_double v
  /\ SFltb v hi = true /\ bins_index b v = Ok i /\ (i = bins_size b - 1)%N
  (* four bins on [0, 1): the bin above is the one that values of at least 1 get *)
  /\ bins_index b hi = Ok i.
Proof.
  intros L. pose (nd := lone (leaf "linspace" [("bins", "4"); ("min", "0"); ("max", "1")])).
  assert (Hhi : as_double (text_ext (F64 L) []) (n_attr nd "max") = f64_ofZ 1)
    by (vm_compute; reflexivity).
  exists (text_ext (F64 L) []), nd,
    (LinspaceBins (A := F64 L) (4 + 2) (f64_ofZ 0) (f64_ofZ 1) (width64 4 (f64_ofZ 0) (f64_ofZ 1))),
    (S754_finite false 9007199254740991 (-53)), 5%N.
  cbv zeta. rewrite Hhi. split; [reflexivity|]. split.
  { apply spelled; try reflexivity; vm_compute; reflexivity. }
  repeat (split; [vm_compute; reflexivity|]). vm_compute. reflexivity.
Qed.

(** 7e-323: fourteen times the smallest positive double. *)
Fixpoint zeros (k : nat) : string := match k with O => "" | S k' => "0" ++ zeros k' end.
Definition tiny : string := "0." ++ zeros 322 ++ "7".

Lemma C79_outside_refuted_proof :
  forall L : Libm, exists (X : Ext (F64 L)) (nd : node) (b : bins (F64 L)) (v : spec_float) (i : N),
  n_name nd = "linspace" /\ bins_create X nd = Ok b /\ is_double v /\ finite v
  /\ bins_index b v = Ok i /\ (bins_size b <= i)%N.
Proof.
  intros L. pose (nd := lone (leaf "linspace" [("bins", "10"); ("min", "0"); ("max", tiny)])).
  pose (hi := S754_finite false 14 (-1074)).
  exists (text_ext (F64 L) []), nd,
    (LinspaceBins (A := F64 L) (10 + 2) (f64_ofZ 0) hi (width64 10 (f64_ofZ 0) hi)),
    (S754_finite false 13 (-1074)), 14%N.
  split; [reflexivity|]. split.
  { apply spelled; try reflexivity; vm_compute; reflexivity. }
  split; [vm_compute; reflexivity|]. split; [exact I|].
  split; [vm_compute; reflexivity|]. vm_compute. discriminate.
Qed.

Lemma C79_undefined_refuted_proof :
  forall L : Libm, exists (X : Ext (F64 L)) (nd : node) (b : bins (F64 L)) (v : spec_float),
  n_name nd = "linspace" /\ bins_create X nd = Ok b /\ is_double v /\ finite v
  /\ bins_index b v = UB.
Proof.
  intros L. pose (nd := lone (leaf "linspace"
    [("bins", "10"); ("min", "-15" ++ zeros 307); ("max", "15" ++ zeros 307)])).
  pose (lo := f64_dec (-15) 307). pose (hi := f64_dec 15 307).
  exists (text_ext (F64 L) []), nd,
    (LinspaceBins (A := F64 L) (10 + 2) lo hi (width64 10 lo hi)),
    (S754_finite false 5010420900022432 971).
  split; [reflexivity|]. split.
  { apply spelled; try reflexivity; vm_compute; reflexivity. }
  split; [vm_compute; reflexivity|]. split; [exact I|].
  vm_compute. reflexivity.
Qed.

Lemma C79_not_a_number_proof :
  forall (L : Libm) (X : Ext (F64 L)) (nd : node) (b : bins (F64 L)),
  n_name nd = "linspace" -> bins_create X nd = Ok b -> bins_index b S754_nan = UB.
Proof.
  intros L X nd b Hn Hb. unfold bins_create in Hb. rewrite Hn in Hb.
  cbn [String.eqb Ascii.eqb Bool.eqb] in Hb. unfold make_linspace in Hb.
  destruct (nleb (F64 L) _ _); [discriminate Hb|]. injection Hb as <-.
  cbn [bins_index nltb nleb F64]. set (lo := as_double _ _). set (hi := as_double _ _).
  assert (E1 : SFltb S754_nan lo = false) by reflexivity. rewrite E1.
  assert (E2 : SFleb hi S754_nan = false) by (destruct hi as [?|[]| |[] ? ?]; reflexivity).
  try rewrite E2. reflexivity.
Qed.
