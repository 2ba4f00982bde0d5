(** Directions in binary64: the length after normalising and the cosine after turning. *)
From Coq Require Import Bool String List Reals ZArith NArith Lia Lra SpecFloat.
From Flocq Require Import Core IEEE754.BinarySingleNaN.
From Verif Require Import Model.Num Model.Outcome Model.Rng Model.Xml Model.Point Model.Types Model.Particle
  Spec.DoubleSpec Spec.DoublePlaneSpec Spec.DoubleDirSpec
  Proofs.FloatLib Proofs.FloatReal Proofs.DoubleBins Proofs.DoubleRandom Proofs.DoubleStats
  Proofs.DoublePlanes Proofs.DoubleTables Proofs.IdealLibm.
Import ListNotations.
Local Open Scope R_scope.

(** ** Normalising *)
Lemma over_near b s : 0 <= s <= / 64 -> Rabs b <= s -> exists c, Rabs c <= s * (1 + 2 * s) /\ / (1 + b) = 1 + c /\ 0 < 1 + b.
Proof.
  intros Hs H. apply Rabs_le_inv in H. exists (- b / (1 + b)).
  assert (P : 1 / 2 <= 1 + b) by lra. split; [|split; [field; lra|lra]].
  apply Rabs_le. split.
  - apply Rmult_le_reg_r with (1 + b); [lra|]. unfold Rdiv. rewrite Rmult_assoc, Rinv_l by lra. nra.
  - apply Rmult_le_reg_r with (1 + b); [lra|]. unfold Rdiv. rewrite Rmult_assoc, Rinv_l by lra. nra.
Qed.
Lemma sqrt_near S Q s : 0 < S -> 0 <= s <= / 64 -> Rabs (Q - S) <= s * S ->
  exists c, Rabs c <= s / 2 + s * s /\ sqrt Q = sqrt S * (1 + c).
Proof.
  intros HS Hs HQ. apply Rabs_le_inv in HQ. pose proof (sqrt_lt_R0 S HS) as P.
  assert (SS : sqrt S * sqrt S = S) by (apply sqrt_sqrt; lra).
  destruct (factor (sqrt S) (sqrt Q) (s / 2 + s * s)) as (c & Hc & E); [nra| |exists c; auto].
  rewrite (Rabs_pos_eq (sqrt S)) by lra. apply Rabs_le. split.
  - assert (sqrt S * (1 - (s / 2 + s * s)) <= sqrt Q); [|lra].
    rewrite <- (sqrt_square (sqrt S * (1 - (s / 2 + s * s)))) by (apply Rmult_le_pos; nra). apply sqrt_le_1_alt.
    replace (sqrt S * (1 - (s / 2 + s * s)) * (sqrt S * (1 - (s / 2 + s * s)))) with (S * ((1 - (s / 2 + s * s)) * (1 - (s / 2 + s * s)))) by (rewrite <- SS at 1; ring).
    apply Rle_trans with (S * (1 - s)); [|lra]. apply Rmult_le_compat_l; [lra|].
    assert (s * s <= s / 64) by nra. nra.
  - assert (sqrt Q <= sqrt S * (1 + (s / 2 + s * s))); [|lra].
    rewrite <- (sqrt_square (sqrt S * (1 + (s / 2 + s * s)))) by (apply Rmult_le_pos; nra). apply sqrt_le_1_alt.
    replace (sqrt S * (1 + (s / 2 + s * s)) * (sqrt S * (1 + (s / 2 + s * s)))) with (S * ((1 + (s / 2 + s * s)) * (1 + (s / 2 + s * s)))) by (rewrite <- SS at 1; ring).
    apply Rle_trans with (S * (1 + s)); [lra|]. apply Rmult_le_compat_l; [lra|]. nra.
Qed.

Lemma u63 : u53 / 1024 = bpow radix2 (-63).
Proof. change (-63)%Z with (-53 + -10)%Z. rewrite bpow_plus. reflexivity. Qed.
Section Normal.
  Context {L : Libm}.
  Notation A := (F64 L).
  Variables (xf yf zf : spec_float) (x y z : R).
  Hypothesis (X : is64 xf x) (Y : is64 yf y) (Z : is64 zf z).
  Let S := x * x + y * y + z * z.
  Hypothesis HS : bpow radix2 (-800) <= S <= bpow radix2 802.

  Let dot := rnd (rnd (rnd (x * x) + rnd (y * y)) + rnd (z * z)).
  Lemma n_S : 0 < S. Proof. pose proof (bpow_gt_0 radix2 (-800)). lra. Qed.
  Lemma n_tiny : bpow radix2 (-1021) <= u53 / 1024 * S.
  Proof.
    apply Rle_trans with (u53 / 1024 * bpow radix2 (-800)).
    - rewrite u63. rewrite <- bpow_plus. apply bpow_le. lia.
    - apply Rmult_le_compat_l; [|lra]. pose proof (bpow_ge_0 radix2 (-53)). lra.
  Qed.
  Lemma n_one r : 0 <= r -> r <= S -> Rabs (rnd r) < big /\ (1 - u53) * r - bpow radix2 (-1021) <= rnd r <= (1 + u53) * r + bpow radix2 (-1021) /\ 0 <= rnd r.
  Proof.
    intros H0 H1. split; [apply (fits_below _ 802); [lia|lia|]; rewrite Rabs_pos_eq; lra|].
    pose proof (rnd_any r) as E. rewrite (Rabs_pos_eq r) in E by auto. apply Rabs_le_inv in E.
    split; [lra|now apply rnd_nonneg].
  Qed.
  Lemma n_sum r s : format64 r -> format64 s -> 0 <= r -> 0 <= s -> r + s <= 2 * S ->
    Rabs (rnd (r + s)) < big /\ (1 - u53) * (r + s) <= rnd (r + s) <= (1 + u53) * (r + s) /\ 0 <= rnd (r + s).
  Proof.
    intros F G H0 H1 H2. split.
    - apply (fits_below _ 803); [lia|lia|]. rewrite Rabs_pos_eq by lra. change 803%Z with (1 + 802)%Z. rewrite bpow_plus.
      change (bpow radix2 1) with 2. lra.
    - pose proof (rnd_add_err r s F G) as E. rewrite (Rabs_pos_eq (r + s)) in E by lra. apply Rabs_le_inv in E.
      split; [lra|apply rnd_nonneg; lra].
  Qed.
  Lemma n_dot : is64 (pdot (A := A) (mkPoint (A := A) xf yf zf) (mkPoint (A := A) xf yf zf)) dot
    /\ Rabs (dot - S) <= 302 / 100 * u53 * S.
  Proof.
    pose proof n_S as S0. pose proof n_tiny as T. assert (T0 : 0 <= bpow radix2 (-1021)) by apply bpow_ge_0.
    assert (Sx : 0 <= x * x) by apply Rle_0_sqr. assert (Sy : 0 <= y * y) by apply Rle_0_sqr. assert (Sz : 0 <= z * z) by apply Rle_0_sqr.
    destruct (n_one (x * x) Sx ltac:(unfold S; lra)) as (F1 & A1 & P1).
    destruct (n_one (y * y) Sy ltac:(unfold S; lra)) as (F2 & A2 & P2).
    destruct (n_one (z * z) Sz ltac:(unfold S; lra)) as (F3 & A3 & P3).
    pose proof (is64_mul _ _ _ _ X X F1) as I1. pose proof (is64_mul _ _ _ _ Y Y F2) as I2. pose proof (is64_mul _ _ _ _ Z Z F3) as I3.
    set (a := rnd (x * x)) in *. set (b := rnd (y * y)) in *. set (c := rnd (z * z)) in *.
    set (t := bpow radix2 (-1021)) in *. rewrite u53_val in *. unfold S in *.
    destruct (n_sum a b (is64_format _ _ I1) (is64_format _ _ I2) P1 P2 ltac:(unfold S; lra)) as (F4 & A4 & P4).
    pose proof (is64_add _ _ _ _ I1 I2 F4) as I4. set (e := rnd (a + b)) in *. rewrite u53_val in A4.
    destruct (n_sum e c (is64_format _ _ I4) (is64_format _ _ I3) P4 P3 ltac:(unfold S; lra)) as (F5 & A5 & P5).
    pose proof (is64_add _ _ _ _ I4 I3 F5) as I5. rewrite u53_val in A5.
    split; [exact I5|]. unfold dot. fold a b c. fold e. apply Rabs_le. lra.
  Qed.

  Let N := sqrt S.
  Lemma n_N : bpow radix2 (-400) <= N <= bpow radix2 401 /\ N * N = S.
  Proof.
    pose proof n_S. unfold N. split; [split|apply sqrt_sqrt; lra].
    - rewrite <- (sqrt_square (bpow radix2 (-400))) by apply bpow_ge_0. apply sqrt_le_1_alt. rewrite <- bpow_plus. apply HS.
    - rewrite <- (sqrt_square (bpow radix2 401)) by apply bpow_ge_0. apply sqrt_le_1_alt. rewrite <- bpow_plus. apply HS.
  Qed.
  Lemma n_root : exists c, is64 (nsqrt A (pdot (A := A) (mkPoint (A := A) xf yf zf) (mkPoint (A := A) xf yf zf))) (N * (1 + c))
    /\ Rabs c <= 26 / 10 * u53.
  Proof.
    destruct n_dot as [I E]. pose proof n_S as S0. destruct n_N as [[N1 N2] NN].
    destruct (sqrt_near S dot (302 / 100 * u53)) as (c & Hc & Ec); auto; [rewrite u53_val; lra|].
    assert (Hc' : Rabs c <= 152 / 100 * u53) by (apply Rle_trans with (1 := Hc); rewrite u53_val; lra).
    assert (D0 : 0 <= dot). { apply Rabs_le_inv in E. rewrite u53_val in E. lra. }
    assert (C2 : / 2 <= 1 + c). { apply Rabs_le_inv in Hc'. rewrite u53_val in Hc'. lra. }
    assert (Hl : bpow radix2 (-1022) <= sqrt dot).
    { rewrite Ec. fold N. apply Rle_trans with (bpow radix2 (-400) * / 2).
      - change (/ 2) with (bpow radix2 (-1)). rewrite <- bpow_plus. apply bpow_le. lia.
      - apply Rmult_le_compat; try lra. apply bpow_ge_0. }
    pose proof (rnd_rel (sqrt dot)) as R1. rewrite (Rabs_pos_eq (sqrt dot)) in R1 by apply sqrt_pos. specialize (R1 Hl).
    destruct (factor (sqrt dot) (rnd (sqrt dot)) u53) as (e & He & Ee); [apply bpow_ge_0|rewrite (Rabs_pos_eq (sqrt dot)) by apply sqrt_pos; auto|].
    destruct (join c e _ _ Hc' He) as (f & Hf & Ef). exists f. split.
    - replace (N * (1 + f)) with (rnd (sqrt dot)); [now apply is64_sqrt|]. rewrite Ee, Ec, <- Ef. fold N. ring.
    - apply Rle_trans with (1 := Hf). rewrite u53_val. lra.
  Qed.
  Lemma n_component (pf : spec_float) p : is64 pf p -> Rabs p <= N ->
    exists e t, is64 (ndiv A pf (nsqrt A (pdot (A := A) (mkPoint (A := A) xf yf zf) (mkPoint (A := A) xf yf zf)))) (p / N * (1 + e) + t)
      /\ Rabs e <= 37 / 10 * u53 /\ Rabs t <= bpow radix2 (-1021).
  Proof.
    intros P HP. destruct n_root as (c & I & Hc). destruct n_N as [[N1 N2] NN].
    assert (N0 : 0 < N) by (pose proof (bpow_gt_0 radix2 (-400)); lra).
    destruct (over_near c (26 / 10 * u53)) as (c' & Hc' & Ec & C0); auto; [rewrite u53_val; lra|].
    destruct (c94_any (p / (N * (1 + c)))) as (e & He & Ee).
    destruct (join c' e _ _ Hc' He) as (f & Hf & Ef).
    assert (Q : p / (N * (1 + c)) = p / N * (1 + c')) by (rewrite <- Ec; field; lra).
    assert (B1 : Rabs (p / N) <= 1).
    { unfold Rdiv. rewrite Rabs_mult, Rabs_inv, (Rabs_pos_eq N) by lra. apply Rmult_le_reg_r with N; [auto|].
      rewrite Rmult_assoc, Rinv_l by lra. lra. }
    exists f, (rnd (p / (N * (1 + c))) - p / (N * (1 + c)) * (1 + e)). split; [|split; [|exact Ee]].
    - replace (p / N * (1 + f) + (rnd (p / (N * (1 + c))) - p / (N * (1 + c)) * (1 + e))) with (rnd (p / (N * (1 + c)))).
      + apply (is64_div _ _ _ _ P I); [nra|]. apply (fits_below _ 2); [lia|lia|]. rewrite Q, Rabs_mult.
        change (bpow radix2 2) with 4. apply Rle_trans with (1 * 4); [|lra]. apply Rmult_le_compat; auto using Rabs_pos.
        apply Rabs_le_inv in Hc'. rewrite u53_val in Hc'. apply Rabs_le. lra.
      + rewrite Q, <- Ef. ring.
    - apply Rle_trans with (1 := Hf). rewrite u53_val. lra.
  Qed.
  Lemma n_below p : p * p <= S -> Rabs p <= N.
  Proof.
    intros H. unfold N. rewrite <- (sqrt_Rsqr_abs p). now apply sqrt_le_1_alt.
  Qed.

  Lemma normal : exists a b c,
    is64 (px (pnormalize (A := A) (mkPoint (A := A) xf yf zf))) a
    /\ is64 (py (pnormalize (A := A) (mkPoint (A := A) xf yf zf))) b
    /\ is64 (pz (pnormalize (A := A) (mkPoint (A := A) xf yf zf))) c
    /\ Rabs (a - x / N) <= 4 * u53 * Rabs (x / N) + bpow radix2 (-1021)
    /\ Rabs (b - y / N) <= 4 * u53 * Rabs (y / N) + bpow radix2 (-1021)
    /\ Rabs (c - z / N) <= 4 * u53 * Rabs (z / N) + bpow radix2 (-1021)
    /\ Rabs (a * a + b * b + c * c - 1) <= bpow radix2 (-50).
  Proof.
    destruct n_N as [[N1 N2] NN]. assert (N0 : 0 < N) by (pose proof (bpow_gt_0 radix2 (-400)); lra).
    pose proof n_S as S0.
    assert (Sx : 0 <= x * x) by apply Rle_0_sqr. assert (Sy : 0 <= y * y) by apply Rle_0_sqr. assert (Sz : 0 <= z * z) by apply Rle_0_sqr.
    destruct (n_component _ _ X (n_below x ltac:(unfold S; lra))) as (e1 & t1 & I1 & E1 & T1).
    destruct (n_component _ _ Y (n_below y ltac:(unfold S; lra))) as (e2 & t2 & I2 & E2 & T2).
    destruct (n_component _ _ Z (n_below z ltac:(unfold S; lra))) as (e3 & t3 & I3 & E3 & T3).
    assert (K : x / N * (x / N) + y / N * (y / N) + z / N * (z / N) = 1).
    { replace (x / N * (x / N) + y / N * (y / N) + z / N * (z / N)) with (S / (N * N)) by (unfold S; field; lra).
      rewrite NN. field. lra. }
    assert (One : forall q e t, Rabs e <= 37 / 10 * u53 -> Rabs t <= bpow radix2 (-1021) ->
      Rabs (q * (1 + e) + t - q) <= 4 * u53 * Rabs q + bpow radix2 (-1021)).
    { intros q e t He Ht. replace (q * (1 + e) + t - q) with (q * e + t) by ring.
      apply Rle_trans with (1 := Rabs_triang _ _). apply Rplus_le_compat; [|auto]. rewrite Rabs_mult, Rmult_comm.
      apply Rmult_le_compat_r; [apply Rabs_pos|]. apply Rle_trans with (1 := He). pose proof (bpow_ge_0 radix2 (-53)). lra. }
    do 3 eexists. split; [exact I1|]. split; [exact I2|]. split; [exact I3|].
    split; [now apply One|]. split; [now apply One|]. split; [now apply One|].
    assert (SqB : forall q, q * q <= 1 -> Rabs q <= 1).
    { intros q Hq. apply Rabs_le. split; nra. }
    pose proof (Rle_0_sqr (x / N)) as Qx. pose proof (Rle_0_sqr (y / N)) as Qy. pose proof (Rle_0_sqr (z / N)) as Qz. unfold Rsqr in Qx, Qy, Qz.
    assert (TT : bpow radix2 (-1021) <= u53 / 1024).
    { rewrite u63. apply bpow_le. lia. }
    assert (Sq : forall q e t, Rabs q <= 1 -> Rabs e <= 37 / 10 * u53 -> Rabs t <= bpow radix2 (-1021) ->
      Rabs ((q * (1 + e) + t) * (q * (1 + e) + t) - q * q) <= 75 / 10 * u53 * (q * q) + u53 / 100).
    { intros q e t Hq He Ht.
      replace ((q * (1 + e) + t) * (q * (1 + e) + t) - q * q) with (q * q * (2 * e + e * e) + t * (2 * q * (1 + e) + t)) by ring.
      apply Rle_trans with (1 := Rabs_triang _ _). pose proof (Rle_0_sqr q) as Q0. unfold Rsqr in Q0.
      pose proof (bpow_gt_0 radix2 (-53)) as U0. rewrite u53_val in *. apply Rabs_le_inv in He. apply Rabs_le_inv in Hq.
      assert (He2 : 0 <= e * e <= / 100000000 * / 9007199254740992) by nra.
      apply Rplus_le_compat.
      - rewrite Rabs_mult, (Rabs_pos_eq (q * q)) by auto. rewrite Rmult_comm. apply Rmult_le_compat_r; [auto|]. apply Rabs_le. lra.
      - rewrite Rabs_mult. apply Rle_trans with ((/ 9007199254740992 / 1024) * 4); [|lra].
        apply Rmult_le_compat; auto using Rabs_pos; [lra|]. apply Rabs_le_inv in Ht. apply Rabs_le. nra. }
    clear - K Qx Qy Qz Sq SqB E1 E2 E3 T1 T2 T3.
    set (q1 := x / N) in *. set (q2 := y / N) in *. set (q3 := z / N) in *. clearbody q1 q2 q3.
    pose proof (Sq q1 e1 t1 (SqB q1 ltac:(lra)) E1 T1) as H1.
    pose proof (Sq q2 e2 t2 (SqB q2 ltac:(lra)) E2 T2) as H2.
    pose proof (Sq q3 e3 t3 (SqB q3 ltac:(lra)) E3 T3) as H3.
    replace (bpow radix2 (-50)) with (8 * u53) by (change 8 with (bpow radix2 3); rewrite <- bpow_plus; reflexivity).
    apply Rabs_le_inv in H1, H2, H3. rewrite u53_val in *. clear Sq SqB E1 E2 E3 T1 T2 T3.
    set (a := (q1 * (1 + e1) + t1) * (q1 * (1 + e1) + t1)) in *. set (b := (q2 * (1 + e2) + t2) * (q2 * (1 + e2) + t2)) in *.
    set (c := (q3 * (1 + e3) + t3) * (q3 * (1 + e3) + t3)) in *. clearbody a b c.
    set (s1 := q1 * q1) in *. set (s2 := q2 * q2) in *. set (s3 := q3 * q3) in *. clearbody s1 s2 s3.
    apply Rabs_le. split; lra.
  Qed.
End Normal.

(** ** Turning: the errors *)
Notation h52 := (bpow radix2 (-52)).
Lemma h52_val : h52 = / 4503599627370496. Proof. reflexivity. Qed.
Lemma tiny_small : bpow radix2 (-1021) <= h52 / 64.
Proof.
  replace (h52 / 64) with (bpow radix2 (-58)); [apply bpow_le; lia|].
  change (-58)%Z with (-52 + -6)%Z. rewrite bpow_plus. reflexivity.
Qed.
Lemma near_rnd r k : Rabs r <= 2 * k - / 16 -> Rabs (rnd r - r) <= k * h52.
Proof.
  intros H. pose proof (rnd_any r) as E. pose proof tiny_small. rewrite u53_val, h52_val in *. lra.
Qed.
Lemma near_1 r : Rabs r <= 3 / 2 -> Rabs (rnd r - r) <= h52.
Proof. intros H. replace h52 with (1 * h52) by ring. apply near_rnd. lra. Qed.
Lemma near_2 r : Rabs r <= 3 -> Rabs (rnd r - r) <= 2 * h52.
Proof. intros H. apply near_rnd. lra. Qed.
Lemma near_3 r : Rabs r <= 5 -> Rabs (rnd r - r) <= 3 * h52.
Proof. intros H. apply near_rnd. lra. Qed.
Lemma prod_le a b p q : Rabs a <= p -> Rabs b <= q -> Rabs (a * b) <= p * q.
Proof. intros. rewrite Rabs_mult. apply Rmult_le_compat; auto using Rabs_pos. Qed.
Lemma sum_le a b p q : Rabs a <= p -> Rabs b <= q -> Rabs (a + b) <= p + q.
Proof. intros. apply Rle_trans with (1 := Rabs_triang _ _). lra. Qed.
Lemma dot_le a1 a2 a3 b1 b2 b3 e B : Rabs a1 <= e -> Rabs a2 <= e -> Rabs a3 <= e -> Rabs b1 + Rabs b2 + Rabs b3 <= B -> 0 <= e ->
  Rabs (a1 * b1 + a2 * b2 + a3 * b3) <= e * B.
Proof.
  intros H1 H2 H3 H He. pose proof (Rabs_pos b1). pose proof (Rabs_pos b2). pose proof (Rabs_pos b3).
  apply Rle_trans with (e * Rabs b1 + e * Rabs b2 + e * Rabs b3).
  - repeat apply sum_le; apply prod_le; lra.
  - rewrite <- !Rmult_plus_distr_l. apply Rmult_le_compat_l; lra.
Qed.
Lemma abs_square a : Rabs a * Rabs a = a * a.
Proof. rewrite <- Rabs_mult. apply Rabs_pos_eq. apply Rle_0_sqr. Qed.
Lemma sum2 a b c : a * a + b * b + c * c <= 1 + / 64 -> Rabs a + Rabs b + Rabs c <= 2.
Proof.
  intros H. rewrite <- (abs_square a), <- (abs_square b), <- (abs_square c) in H.
  set (x := Rabs a) in *. set (y := Rabs b) in *. set (z := Rabs c) in *.
  pose proof (Rle_0_sqr (x - y)). pose proof (Rle_0_sqr (x - z)). pose proof (Rle_0_sqr (y - z)). unfold Rsqr in *.
  apply Rnot_lt_le. intros G. assert (2 * 2 < (x + y + z) * (x + y + z)) by (apply Rmult_le_0_lt_compat; lra). nra.
Qed.
Lemma one_le a b c : a * a + b * b + c * c <= 1 + / 64 -> Rabs a <= 9 / 8 /\ Rabs b <= 9 / 8 /\ Rabs c <= 9 / 8.
Proof.
  intros H. pose proof (Rle_0_sqr a). pose proof (Rle_0_sqr b). pose proof (Rle_0_sqr c). unfold Rsqr in *.
  repeat split; apply Rabs_le; nra.
Qed.

(** a vector that is orthogonal to [d] up to an error stays so when it is normalised *)
Lemma ortho p1 p2 p3 d1 d2 d3 n1 n2 n3 N eta nu :
  Rabs (p1 * d1 + p2 * d2 + p3 * d3) <= eta -> 0 < nu <= N ->
  Rabs (n1 - p1 / N) <= 3 * h52 -> Rabs (n2 - p2 / N) <= 3 * h52 -> Rabs (n3 - p3 / N) <= 3 * h52 ->
  Rabs d1 + Rabs d2 + Rabs d3 <= 2 ->
  Rabs (n1 * d1 + n2 * d2 + n3 * d3) <= eta / nu + 6 * h52.
Proof.
  intros H Hn H1 H2 H3 Hd.
  replace (n1 * d1 + n2 * d2 + n3 * d3) with ((p1 * d1 + p2 * d2 + p3 * d3) * / N + ((n1 - p1 / N) * d1 + (n2 - p2 / N) * d2 + (n3 - p3 / N) * d3)) by (field; lra).
  apply sum_le.
  - unfold Rdiv. apply prod_le; auto. rewrite Rabs_pos_eq by (left; apply Rinv_0_lt_compat; lra). apply Rinv_le_contravar; lra.
  - pose proof (bpow_ge_0 radix2 (-52)). replace (6 * h52) with (3 * h52 * 2) by ring. apply dot_le; auto. lra.
Qed.

Section Cross.
  Context {L : Libm}.
  Notation A := (F64 L).
  Lemma mul_near xf yf x y : is64 xf x -> is64 yf y -> Rabs x <= 9 / 8 -> Rabs y <= 9 / 8 ->
    is64 (nmul A xf yf) (rnd (x * y)) /\ Rabs (rnd (x * y) - x * y) <= h52 /\ Rabs (rnd (x * y)) <= 11 / 8.
  Proof.
    intros X Y Bx By. assert (P : Rabs (x * y) <= 81 / 64) by (replace (81 / 64) with (9 / 8 * (9 / 8)) by field; now apply prod_le).
    assert (E : Rabs (rnd (x * y) - x * y) <= h52) by (apply near_1; lra). split; [|split; [auto|]].
    - apply is64_mul; auto. apply (fits_below _ 3); [lia|lia|]. change (bpow radix2 3) with 8. lra.
    - replace (rnd (x * y)) with (x * y + (rnd (x * y) - x * y)) by ring. replace (11 / 8) with (81 / 64 + 7 / 64) by field.
      apply sum_le; auto. rewrite h52_val in E. lra.
  Qed.
  Lemma cross_one a1f b1f a2f b2f a1 b1 a2 b2 : is64 a1f a1 -> is64 b1f b1 -> is64 a2f a2 -> is64 b2f b2 ->
    Rabs a1 <= 9 / 8 -> Rabs b1 <= 9 / 8 -> Rabs a2 <= 9 / 8 -> Rabs b2 <= 9 / 8 ->
    exists w, is64 (nsub A (nmul A a1f b1f) (nmul A a2f b2f)) w /\ Rabs (w - (a1 * b1 - a2 * b2)) <= 4 * h52.
  Proof.
    intros A1 B1 A2 B2 H1 H2 H3 H4. destruct (mul_near _ _ _ _ A1 B1 H1 H2) as (I1 & E1 & P1). destruct (mul_near _ _ _ _ A2 B2 H3 H4) as (I2 & E2 & P2).
    assert (P : Rabs (rnd (a1 * b1) - rnd (a2 * b2)) <= 11 / 4).
    { unfold Rminus. replace (11 / 4) with (11 / 8 + 11 / 8) by field. apply sum_le; [auto|now rewrite Rabs_Ropp]. }
    eexists. split.
    - apply is64_sub; [exact I1|exact I2|]. apply (fits_below _ 3); [lia|lia|]. change (bpow radix2 3) with 8. lra.
    - pose proof (near_2 (rnd (a1 * b1) - rnd (a2 * b2)) ltac:(lra)) as E. apply Rabs_le_inv in E, E1, E2. apply Rabs_le. lra.
  Qed.
  (** normalising a vector of moderate length *)
  Lemma normal_near xf yf zf x y z : is64 xf x -> is64 yf y -> is64 zf z ->
    let S := x * x + y * y + z * z in / 64 <= S <= 16 ->
    exists a b c,
      is64 (px (pnormalize (A := A) (mkPoint (A := A) xf yf zf))) a
      /\ is64 (py (pnormalize (A := A) (mkPoint (A := A) xf yf zf))) b
      /\ is64 (pz (pnormalize (A := A) (mkPoint (A := A) xf yf zf))) c
      /\ Rabs (a - x / sqrt S) <= 3 * h52 /\ Rabs (b - y / sqrt S) <= 3 * h52 /\ Rabs (c - z / sqrt S) <= 3 * h52
      /\ Rabs (a * a + b * b + c * c - 1) <= 4 * h52.
  Proof.
    intros X Y Z S HS.
    assert (HS' : bpow radix2 (-800) <= S <= bpow radix2 802).
    { split.
      - apply Rle_trans with (/ 64); [|lra]. change (/ 64) with (bpow radix2 (-6)). apply bpow_le. lia.
      - apply Rle_trans with 16; [lra|]. change 16 with (bpow radix2 4). apply bpow_le. lia. }
    destruct (normal (L := L) _ _ _ _ _ _ X Y Z HS') as (a & b & c & I1 & I2 & I3 & E1 & E2 & E3 & Q). fold S in E1, E2, E3.
    exists a, b, c. split; [exact I1|]. split; [exact I2|]. split; [exact I3|].
    assert (K : forall p q, p * p <= S -> Rabs (q - p / sqrt S) <= 4 * u53 * Rabs (p / sqrt S) + tiny64 -> Rabs (q - p / sqrt S) <= 3 * h52).
    { intros p q Hp Hq. apply Rle_trans with (1 := Hq).
      assert (B : Rabs (p / sqrt S) <= 1).
      { assert (0 < sqrt S) by (apply sqrt_lt_R0; lra). unfold Rdiv. rewrite Rabs_mult, Rabs_inv, (Rabs_pos_eq (sqrt S)) by lra.
        apply Rmult_le_reg_r with (sqrt S); [auto|]. rewrite Rmult_assoc, Rinv_l by lra. rewrite <- (sqrt_Rsqr_abs p), Rmult_1_l, Rmult_1_r.
        now apply sqrt_le_1_alt. }
      pose proof tiny_small. rewrite u53_val, h52_val in *. lra. }
    pose proof (Rle_0_sqr x). pose proof (Rle_0_sqr y). pose proof (Rle_0_sqr z). unfold Rsqr in *.
    split; [apply K; [unfold S; lra|auto]|]. split; [apply K; [unfold S; lra|auto]|]. split; [apply K; [unfold S; lra|auto]|].
    replace (4 * h52) with (bpow radix2 (-50)); [exact Q|]. change 4 with (bpow radix2 2). rewrite <- bpow_plus. reflexivity.
  Qed.
End Cross.

(** ** Turning: the two vectors orthogonal to the direction *)
Lemma sq_near a b e : Rabs (a - b) <= e -> Rabs b <= 5 / 4 -> 0 <= e <= / 64 -> Rabs (a * a - b * b) <= 3 * e.
Proof.
  intros H Hb He. replace (a * a - b * b) with ((a - b) * (a + b)) by ring. rewrite Rmult_comm. apply prod_le; auto.
  replace (a + b) with ((a - b) + (b + b)) by ring. apply Rle_trans with (/ 64 + (5 / 4 + 5 / 4)); [|lra].
  apply sum_le; [lra|now apply sum_le].
Qed.
Section Frame.
  Context {L : Libm}.
  Notation A := (F64 L).
  Variables (d1f d2f d3f : spec_float) (d1 d2 d3 : R).
  Hypothesis (D1 : is64 d1f d1) (D2 : is64 d2f d2) (D3 : is64 d3f d3).
  Hypothesis HD : Rabs (d1 * d1 + d2 * d2 + d3 * d3 - 1) <= 24 * h52.
  Lemma f_small : d1 * d1 + d2 * d2 + d3 * d3 <= 1 + / 64.
  Proof. apply Rabs_le_inv in HD. rewrite h52_val in HD. lra. Qed.

  (** any cross product with the direction, normalised *)
  Lemma f_cross q1f q2f q3f q1 q2 q3 : is64 q1f q1 -> is64 q2f q2 -> is64 q3f q3 ->
    q1 * q1 + q2 * q2 + q3 * q3 <= 1 + / 64 ->
    let c1 := d2 * q3 - d3 * q2 in let c2 := d3 * q1 - d1 * q3 in let c3 := d1 * q2 - d2 * q1 in
    forall nu, / 4 <= nu -> (nu + / 64) * (nu + / 64) <= c1 * c1 + c2 * c2 + c3 * c3 ->
    exists a b c,
      let n := pnormalize (pcross (A := A) (mkPoint (A := A) d1f d2f d3f) (mkPoint (A := A) q1f q2f q3f)) in
      is64 (px n) a /\ is64 (py n) b /\ is64 (pz n) c
      /\ Rabs (a * a + b * b + c * c - 1) <= 4 * h52
      /\ Rabs (a * d1 + b * d2 + c * d3) <= 8 * h52 / nu + 6 * h52
      /\ Rabs (a * q1 + b * q2 + c * q3) <= 8 * h52 / nu + 6 * h52.
  Proof.
    intros Q1 Q2 Q3 HQ c1 c2 c3 nu Hnu Hc. pose proof f_small as HD'.
    destruct (one_le _ _ _ HD') as (B1 & B2 & B3). destruct (one_le _ _ _ HQ) as (G1 & G2 & G3).
    destruct (cross_one (L := L) _ _ _ _ _ _ _ _ D2 Q3 D3 Q2 B2 G3 B3 G2) as (w1 & W1 & E1).
    destruct (cross_one (L := L) _ _ _ _ _ _ _ _ D3 Q1 D1 Q3 B3 G1 B1 G3) as (w2 & W2 & E2).
    destruct (cross_one (L := L) _ _ _ _ _ _ _ _ D1 Q2 D2 Q1 B1 G2 B2 G1) as (w3 & W3 & E3).
    fold c1 in E1. fold c2 in E2. fold c3 in E3.
    (* the exact product is at most one in length *)
    assert (Lag : c1 * c1 + c2 * c2 + c3 * c3 <= (1 + / 64) * (1 + / 64)).
    { apply Rle_trans with ((d1 * d1 + d2 * d2 + d3 * d3) * (q1 * q1 + q2 * q2 + q3 * q3)).
      - pose proof (Rle_0_sqr (d1 * q1 + d2 * q2 + d3 * q3)) as Z. unfold Rsqr in Z. unfold c1, c2, c3. lra.
      - pose proof (Rle_0_sqr d1). pose proof (Rle_0_sqr d2). pose proof (Rle_0_sqr d3). pose proof (Rle_0_sqr q1). pose proof (Rle_0_sqr q2). pose proof (Rle_0_sqr q3).
        unfold Rsqr in *. apply Rmult_le_compat; lra. }
    assert (Cb : Rabs c1 <= 5 / 4 /\ Rabs c2 <= 5 / 4 /\ Rabs c3 <= 5 / 4).
    { pose proof (Rle_0_sqr c1). pose proof (Rle_0_sqr c2). pose proof (Rle_0_sqr c3). unfold Rsqr in *.
      clear - Lag H H0 H1. repeat split; apply Rabs_le; nra. }
    destruct Cb as (C1 & C2 & C3).
    assert (Hh : 0 <= 4 * h52 <= / 64) by (rewrite h52_val; lra).
    pose proof (sq_near _ _ _ E1 C1 Hh) as S1. pose proof (sq_near _ _ _ E2 C2 Hh) as S2. pose proof (sq_near _ _ _ E3 C3 Hh) as S3.
    set (S := w1 * w1 + w2 * w2 + w3 * w3).
    assert (Hn : nu * nu <= S /\ S <= 16).
    { apply Rabs_le_inv in S1, S2, S3. rewrite h52_val in *. unfold S. split; nra. }
    assert (HS : / 64 <= S <= 16) by (split; [nra|lra]).
    destruct (normal_near (L := L) _ _ _ _ _ _ W1 W2 W3 HS) as (a & b & c & I1 & I2 & I3 & F1 & F2 & F3 & Q).
    exists a, b, c. cbv zeta. split; [exact I1|]. split; [exact I2|]. split; [exact I3|]. split; [exact Q|].
    assert (Hs : nu <= sqrt S). { rewrite <- (sqrt_square nu) by lra. apply sqrt_le_1_alt. lra. }
    split; (apply (ortho w1 w2 w3) with (N := sqrt S); auto; [|lra|now apply sum2]).
    - replace (w1 * d1 + w2 * d2 + w3 * d3) with ((w1 - c1) * d1 + (w2 - c2) * d2 + (w3 - c3) * d3) by (unfold c1, c2, c3; ring).
      replace (8 * h52) with (4 * h52 * 2) by ring. apply dot_le; auto; [now apply sum2|lra].
    - replace (w1 * q1 + w2 * q2 + w3 * q3) with ((w1 - c1) * q1 + (w2 - c2) * q2 + (w3 - c3) * q3) by (unfold c1, c2, c3; ring).
      replace (8 * h52) with (4 * h52 * 2) by ring. apply dot_le; auto; [now apply sum2|lra].
  Qed.

  Let d := mkPoint (A := A) d1f d2f d3f.
  Let off := (nleb A (px d) on_axis_tolerance && nltb A (nopp A on_axis_tolerance) (px d))%bool.
  Let axis := if off then mkPoint (A := A) (nofZ A 1) (nofZ A 0) (nofZ A 0) else mkPoint (A := A) (nofZ A 0) (nofZ A 1) (nofZ A 0).
  Let u := dir_of_point (pcross d axis).
  Let v := dir_of_point (pcross d u).

  Definition nine_tenths : spec_float := S754_finite false 8106479329266893 (-53).
  Lemma tolerance : is64 nine_tenths (8106479329266893 / 9007199254740992) /\ on_axis_tolerance (A := A) = nine_tenths.
  Proof.
    split; [|unfold on_axis_tolerance; vm_compute; reflexivity].
    replace (8106479329266893 / 9007199254740992) with (value nine_tenths).
    - apply double_is64; [vm_compute; reflexivity|exact I].
    - unfold nine_tenths, value. rewrite pow_bpow. change (bpow radix2 (-53)) with (/ 9007199254740992). field.
  Qed.

  Lemma f_u : exists a b c, is64 (px u) a /\ is64 (py u) b /\ is64 (pz u) c
    /\ Rabs (a * a + b * b + c * c - 1) <= 4 * h52
    /\ Rabs (a * d1 + b * d2 + c * d3) <= 31 * h52.
  Proof.
    pose proof (is64_int 0 ltac:(lia)) as I0. pose proof (is64_int 1 ltac:(lia)) as I1.
    destruct tolerance as [It Et]. pose proof (is64_opp _ _ It) as Io.
    assert (Ho : off = (Rle_bool d1 (8106479329266893 / 9007199254740992) && Rlt_bool (- (8106479329266893 / 9007199254740992)) d1)%bool).
    { unfold off. rewrite Et. cbn [px d]. change (nleb A) with SFleb. change (nltb A) with SFltb. change (nopp A) with SFopp.
      rewrite (is64_leb _ _ _ _ D1 It), (is64_ltb _ _ _ _ Io D1). reflexivity. }
    assert (HD' := HD). apply Rabs_le_inv in HD'. rewrite h52_val in HD'.
    pose proof (Rle_0_sqr d1) as P1. pose proof (Rle_0_sqr d2) as P2. pose proof (Rle_0_sqr d3) as P3. unfold Rsqr in P1, P2, P3.
    assert (N38 : / 4 <= / 3) by lra.
    unfold u, axis. revert Ho. destruct off; intros Ho; symmetry in Ho.
    - apply andb_prop in Ho as [Ho1 Ho2].
      revert Ho1. case Rle_bool_spec; [intros H1 _|discriminate]. revert Ho2. case Rlt_bool_spec; [intros H2 _|discriminate].
      destruct (f_cross _ _ _ _ _ _ I1 I0 I0 ltac:(lra) (/ 3) N38) as (a & b & c & J1 & J2 & J3 & Q & O & _).
      + assert (d1 * d1 <= 82 / 100) by nra. lra.
      + exists a, b, c. repeat split; auto. apply Rle_trans with (1 := O). rewrite h52_val. lra.
    - destruct (f_cross _ _ _ _ _ _ I0 I1 I0 ltac:(lra) (/ 3) N38) as (a & b & c & J1 & J2 & J3 & Q & O & _).
      + assert (79 / 100 <= d1 * d1).
        { apply andb_false_iff in Ho as [Ho|Ho]; revert Ho.
          - case Rle_bool_spec; [discriminate|intros H1 _]. nra.
          - case Rlt_bool_spec; [discriminate|intros H1 _]. nra. }
        lra.
      + exists a, b, c. repeat split; auto. apply Rle_trans with (1 := O). rewrite h52_val. lra.
  Qed.
  Lemma f_frame : exists u1 u2 u3 v1 v2 v3,
    is64 (px u) u1 /\ is64 (py u) u2 /\ is64 (pz u) u3 /\ is64 (px v) v1 /\ is64 (py v) v2 /\ is64 (pz v) v3
    /\ Rabs (u1 * u1 + u2 * u2 + u3 * u3 - 1) <= 4 * h52
    /\ Rabs (v1 * v1 + v2 * v2 + v3 * v3 - 1) <= 4 * h52
    /\ Rabs (u1 * d1 + u2 * d2 + u3 * d3) <= 31 * h52
    /\ Rabs (v1 * d1 + v2 * d2 + v3 * d3) <= 15 * h52
    /\ Rabs (v1 * u1 + v2 * u2 + v3 * u3) <= 15 * h52.
  Proof.
    destruct f_u as (a & b & c & J1 & J2 & J3 & Q & O).
    assert (HQ : a * a + b * b + c * c <= 1 + / 64). { apply Rabs_le_inv in Q. rewrite h52_val in Q. lra. }
    destruct (f_cross _ _ _ _ _ _ J1 J2 J3 HQ (98 / 100) ltac:(lra)) as (v1 & v2 & v3 & K1 & K2 & K3 & R1 & R2 & R3).
    - replace ((d2 * c - d3 * b) * (d2 * c - d3 * b) + (d3 * a - d1 * c) * (d3 * a - d1 * c) + (d1 * b - d2 * a) * (d1 * b - d2 * a))
        with ((d1 * d1 + d2 * d2 + d3 * d3) * (a * a + b * b + c * c) - (a * d1 + b * d2 + c * d3) * (a * d1 + b * d2 + c * d3)) by ring.
      assert (HD' := HD). apply Rabs_le_inv in HD', Q, O. rewrite h52_val in *.
      set (x := d1 * d1 + d2 * d2 + d3 * d3) in *. set (y := a * a + b * b + c * c) in *. set (w := a * d1 + b * d2 + c * d3) in *.
      clearbody x y w. assert (w * w <= / 1000) by nra. assert (999 / 1000 <= x * y) by nra. lra.
    - exists a, b, c, v1, v2, v3. split; [exact J1|]. split; [exact J2|]. split; [exact J3|].
      split; [destruct u; exact K1|]. split; [destruct u; exact K2|]. split; [destruct u; exact K3|].
      split; [exact Q|]. split; [exact R1|]. split; [exact O|].
      split; [apply Rle_trans with (1 := R2)|apply Rle_trans with (1 := R3)]; rewrite h52_val; lra.
  Qed.
End Frame.

(** ** Turning: the sum *)
Lemma inv_sqrt_near t : Rabs t <= / 2 -> Rabs (/ sqrt (1 + t) - 1) <= Rabs t.
Proof.
  intros H. assert (H' := H). apply Rabs_le_inv in H'. assert (P : 0 < 1 + t) by lra.
  pose proof (sqrt_lt_R0 _ P) as R0. assert (RR : sqrt (1 + t) * sqrt (1 + t) = 1 + t) by (apply sqrt_sqrt; lra).
  set (r := sqrt (1 + t)) in *.
  replace (/ r - 1) with (- t * / (r * (1 + r))).
  - rewrite Rabs_mult, Rabs_Ropp. rewrite <- (Rmult_1_r (Rabs t)) at 2. apply Rmult_le_compat_l; [apply Rabs_pos|].
    assert (1 <= r * (1 + r)). { assert (/ 2 <= r) by nra. nra. }
    rewrite Rabs_pos_eq by (left; apply Rinv_0_lt_compat; lra). rewrite <- Rinv_1. apply Rinv_le_contravar; lra.
  - replace (- t) with (1 - r * r) by lra. field. split; lra.
Qed.

Section Sine.
  Context {L : Libm}.
  Notation A := (F64 L).
  Variables (muf : spec_float) (mu : R).
  Hypothesis (M : is64 muf mu) (HM : Rabs mu <= 1).
  Let s := rnd (sqrt (rnd (1 - rnd (mu * mu)))).
  Lemma mu_square : 0 <= mu * mu <= 1.
  Proof. pose proof (Rle_0_sqr mu) as P. unfold Rsqr in P. split; [auto|]. apply Rabs_le_inv in HM. nra. Qed.
  Lemma s_is : is64 (nsqrt A (nsub A (nofZ A 1) (nmul A muf muf))) s /\ 0 <= s <= 1 /\ Rabs (s * s + mu * mu - 1) <= 4 * h52.
  Proof.
    pose proof mu_square as [M0 M1]. pose proof (is64_int 1 ltac:(lia)) as I1.
    assert (F1 : format64 1) by (now apply (int_format 1)).
    assert (A0 : 0 <= rnd (mu * mu) <= 1) by (split; [now apply rnd_nonneg|now apply rnd_le_format]).
    assert (E1 : Rabs (rnd (mu * mu) - mu * mu) <= h52) by (apply near_1; rewrite Rabs_pos_eq; lra).
    assert (J1 : is64 (nmul A muf muf) (rnd (mu * mu))).
    { apply is64_mul; auto. apply (fits_below _ 3); [lia|lia|]. change (bpow radix2 3) with 8. rewrite Rabs_pos_eq; lra. }
    set (m := rnd (mu * mu)) in *.
    assert (B0 : 0 <= rnd (1 - m) <= 1) by (split; [apply rnd_nonneg; lra|apply rnd_le_format; [auto|lra]]).
    assert (E2 : Rabs (rnd (1 - m) - (1 - m)) <= h52) by (apply near_1; rewrite Rabs_pos_eq; lra).
    assert (J2 : is64 (nsub A (nofZ A 1) (nmul A muf muf)) (rnd (1 - m))).
    { apply is64_sub; auto. apply (fits_below _ 3); [lia|lia|]. change (bpow radix2 3) with 8. rewrite Rabs_pos_eq; lra. }
    set (o := rnd (1 - m)) in *.
    assert (Q0 : 0 <= sqrt o <= 1). { split; [apply sqrt_pos|]. rewrite <- sqrt_1. apply sqrt_le_1_alt. lra. }
    assert (S0 : 0 <= s <= 1) by (unfold s; split; [apply rnd_nonneg; lra|apply rnd_le_format; [auto|lra]]).
    assert (E3 : Rabs (s - sqrt o) <= h52) by (apply near_1; rewrite Rabs_pos_eq; lra).
    assert (SO : sqrt o * sqrt o = o) by (apply sqrt_sqrt; lra).
    split; [apply is64_sqrt; [exact J2|lra]|]. split; [exact S0|].
    assert (E4 : Rabs (s * s - o) <= 2 * h52).
    { rewrite <- SO. replace (s * s - sqrt o * sqrt o) with ((s + sqrt o) * (s - sqrt o)) by ring. apply prod_le; auto.
      rewrite Rabs_pos_eq; lra. }
    apply Rabs_le_inv in E1, E2, E4. apply Rabs_le. lra.
  Qed.
End Sine.

Section Turn.
  Context {L : Libm}.
  Notation A := (F64 L).
  Variables (d1f d2f d3f muf phif : spec_float) (d1 d2 d3 mu C Sn delta : R).
  Hypothesis (D1 : is64 d1f d1) (D2 : is64 d2f d2) (D3 : is64 d3f d3).
  Hypothesis HD : Rabs (d1 * d1 + d2 * d2 + d3 * d3 - 1) <= 24 * h52.
  Hypothesis (M : is64 muf mu) (HM : Rabs mu <= 1).
  Hypothesis (IC : is64 (ncos A phif) C) (IS : is64 (nsin A phif) Sn).
  Hypothesis (BC : Rabs C <= 1) (BS : Rabs Sn <= 1) (HT : Rabs (C * C + Sn * Sn - 1) <= delta) (Hdelta : delta <= / 4).

  Lemma t_factor s sf k kf : is64 sf s -> is64 kf k -> 0 <= s <= 1 -> Rabs k <= 1 ->
    exists r, is64 (nmul A sf kf) r /\ Rabs r <= 1 /\ Rabs (r * r - s * s * (k * k)) <= 3 * h52.
  Proof.
    intros Is Ik Hs Hk. assert (Hs' : Rabs s <= 1) by (rewrite Rabs_pos_eq; lra).
    assert (P : Rabs (s * k) <= 1) by (replace 1 with (1 * 1) by ring; now apply prod_le).
    destruct (mul_near (L := L) _ _ _ _ Is Ik ltac:(lra) ltac:(lra)) as (I1 & E1 & _).
    exists (rnd (s * k)). split; [exact I1|]. split.
    - assert (F1 : format64 1) by (now apply (int_format 1)). assert (F1' : format64 (-1)) by (now apply (int_format (-1))).
      apply Rabs_le_inv in P. apply Rabs_le. split; [apply rnd_ge_format|apply rnd_le_format]; auto; lra.
    - replace (s * s * (k * k)) with (s * k * (s * k)) by ring. apply sq_near; [auto|lra|]. rewrite h52_val. lra.
  Qed.

  (** one component of the sum *)
  Lemma t_sum af bf cf a b c : is64 af a -> is64 bf b -> is64 cf c -> Rabs a <= 11 / 8 -> Rabs b <= 11 / 8 -> Rabs c <= 11 / 8 ->
    exists r, is64 (nadd A (nadd A af bf) cf) r /\ Rabs (r - (a + b + c)) <= 5 * h52.
  Proof.
    intros Ia Ib Ic Ba Bb Bc. assert (P : Rabs (a + b) <= 11 / 4) by (replace (11 / 4) with (11 / 8 + 11 / 8) by field; now apply sum_le).
    assert (E1 : Rabs (rnd (a + b) - (a + b)) <= 2 * h52) by (apply near_2; lra).
    assert (J1 : is64 (nadd A af bf) (rnd (a + b))).
    { apply is64_add; auto. apply (fits_below _ 3); [lia|lia|]. change (bpow radix2 3) with 8. lra. }
    assert (P2 : Rabs (rnd (a + b) + c) <= 5).
    { replace (rnd (a + b) + c) with ((a + b) + (rnd (a + b) - (a + b)) + c) by ring. apply Rle_trans with (11 / 4 + 2 * h52 + 11 / 8).
      - repeat apply sum_le; auto.
      - rewrite h52_val. lra. }
    assert (E2 : Rabs (rnd (rnd (a + b) + c) - (rnd (a + b) + c)) <= 3 * h52) by (apply near_3; lra).
    exists (rnd (rnd (a + b) + c)). split.
    - apply is64_add; auto. apply (fits_below _ 3); [lia|lia|]. change (bpow radix2 3) with 8. lra.
    - apply Rabs_le_inv in E1, E2. apply Rabs_le. lra.
  Qed.
  Lemma t_component af bf cf kf lf mf a b c k l m : is64 af a -> is64 bf b -> is64 cf c -> is64 kf k -> is64 lf l -> is64 mf m ->
    Rabs a <= 9 / 8 -> Rabs b <= 9 / 8 -> Rabs c <= 9 / 8 -> Rabs k <= 1 -> Rabs l <= 1 -> Rabs m <= 1 ->
    exists r, is64 (nadd A (nadd A (nmul A af kf) (nmul A bf lf)) (nmul A cf mf)) r /\ Rabs (r - (a * k + b * l + c * m)) <= 8 * h52.
  Proof.
    intros Ia Ib Ic Ik Il Im Ba Bb Bc Bk Bl Bm.
    destruct (mul_near (L := L) _ _ _ _ Ia Ik Ba ltac:(lra)) as (J1 & E1 & P1).
    destruct (mul_near (L := L) _ _ _ _ Ib Il Bb ltac:(lra)) as (J2 & E2 & P2).
    destruct (mul_near (L := L) _ _ _ _ Ic Im Bc ltac:(lra)) as (J3 & E3 & P3).
    destruct (t_sum _ _ _ _ _ _ J1 J2 J3 P1 P2 P3) as (r & J & E). exists r. split; [exact J|].
    apply Rabs_le_inv in E, E1, E2, E3. apply Rabs_le. lra.
  Qed.

  Lemma turned : exists r1 r2 r3,
    let r := dir_rotate (mkPoint (A := A) d1f d2f d3f) muf phif in
    is64 (px r) r1 /\ is64 (py r) r2 /\ is64 (pz r) r3
    /\ Rabs (r1 * r1 + r2 * r2 + r3 * r3 - 1) <= 4 * h52
    /\ Rabs (r1 * d1 + r2 * d2 + r3 * d3 - mu) <= 512 * h52 + 2 * delta.
  Proof.
    destruct (f_frame (L := L) _ _ _ _ _ _ D1 D2 D3 HD) as (u1 & u2 & u3 & v1 & v2 & v3 & U1 & U2 & U3 & V1 & V2 & V3 & NU & NV & UD & VD & VU).
    destruct (s_is (L := L) muf mu M HM) as (Is & Bs & Es). set (s := rnd (sqrt (rnd (1 - rnd (mu * mu))))) in *.
    destruct (t_factor _ _ _ _ Is IC Bs BC) as (k & Ik & Bk & Ek). destruct (t_factor _ _ _ _ Is IS Bs BS) as (l & Il & Bl & El).
    assert (SU : u1 * u1 + u2 * u2 + u3 * u3 <= 1 + / 64) by (apply Rabs_le_inv in NU; rewrite h52_val in NU; lra).
    assert (SV : v1 * v1 + v2 * v2 + v3 * v3 <= 1 + / 64) by (apply Rabs_le_inv in NV; rewrite h52_val in NV; lra).
    assert (SD : d1 * d1 + d2 * d2 + d3 * d3 <= 1 + / 64) by (assert (HD' := HD); apply Rabs_le_inv in HD'; rewrite h52_val in HD'; lra).
    destruct (one_le _ _ _ SU) as (BU1 & BU2 & BU3). destruct (one_le _ _ _ SV) as (BV1 & BV2 & BV3). destruct (one_le _ _ _ SD) as (BD1 & BD2 & BD3).
    destruct (t_component _ _ _ _ _ _ _ _ _ _ _ _ U1 V1 D1 Ik Il M BU1 BV1 BD1 Bk Bl HM) as (w1 & W1 & E1).
    destruct (t_component _ _ _ _ _ _ _ _ _ _ _ _ U2 V2 D2 Ik Il M BU2 BV2 BD2 Bk Bl HM) as (w2 & W2 & E2).
    destruct (t_component _ _ _ _ _ _ _ _ _ _ _ _ U3 V3 D3 Ik Il M BU3 BV3 BD3 Bk Bl HM) as (w3 & W3 & E3).
    set (g1 := u1 * k + v1 * l + d1 * mu) in *. set (g2 := u2 * k + v2 * l + d2 * mu) in *. set (g3 := u3 * k + v3 * l + d3 * mu) in *.
    pose proof (bpow_gt_0 radix2 (-52)) as H0.
    (* the squares of the three factors *)
    assert (KL : Rabs (k * k + l * l + mu * mu - 1) <= 10 * h52 + delta).
    { replace (k * k + l * l + mu * mu - 1) with ((k * k - s * s * (C * C)) + (l * l - s * s * (Sn * Sn)) + s * s * (C * C + Sn * Sn - 1) + (s * s + mu * mu - 1)) by ring.
      replace (10 * h52 + delta) with (3 * h52 + 3 * h52 + 1 * delta + 4 * h52) by ring.
      repeat apply sum_le; auto. apply prod_le; auto. rewrite Rabs_pos_eq by apply Rle_0_sqr. nra. }
    assert (PKK : 0 <= k * k <= 1) by (split; [apply Rle_0_sqr|apply Rabs_le_inv in Bk; nra]).
    assert (PLL : 0 <= l * l <= 1) by (split; [apply Rle_0_sqr|apply Rabs_le_inv in Bl; nra]).
    assert (PMM : 0 <= mu * mu <= 1) by apply (mu_square mu HM).
    (* the sum without rounding *)
    assert (GG : Rabs (g1 * g1 + g2 * g2 + g3 * g3 - 1) <= 164 * h52 + delta).
    { replace (g1 * g1 + g2 * g2 + g3 * g3 - 1) with
        ((k * k + l * l + mu * mu - 1) + k * k * (u1 * u1 + u2 * u2 + u3 * u3 - 1) + l * l * (v1 * v1 + v2 * v2 + v3 * v3 - 1)
         + mu * mu * (d1 * d1 + d2 * d2 + d3 * d3 - 1)
         + 2 * (k * l * (v1 * u1 + v2 * u2 + v3 * u3)) + 2 * (k * mu * (u1 * d1 + u2 * d2 + u3 * d3)) + 2 * (l * mu * (v1 * d1 + v2 * d2 + v3 * d3)))
        by (unfold g1, g2, g3; ring).
      replace (164 * h52 + delta) with ((10 * h52 + delta) + 1 * (4 * h52) + 1 * (4 * h52) + 1 * (24 * h52) + 2 * (1 * 1 * (15 * h52)) + 2 * (1 * 1 * (31 * h52)) + 2 * (1 * 1 * (15 * h52))) by ring.
      assert (R2 : Rabs 2 <= 2) by (rewrite Rabs_pos_eq; lra).
      assert (Kk : Rabs (k * k) <= 1) by (rewrite Rabs_pos_eq; lra). assert (Ll : Rabs (l * l) <= 1) by (rewrite Rabs_pos_eq; lra).
      assert (Mm : Rabs (mu * mu) <= 1) by (rewrite Rabs_pos_eq; lra).
      apply sum_le; [apply sum_le; [apply sum_le; [apply sum_le; [apply sum_le; [apply sum_le; [exact KL|]|]|]|]|]|].
      1-3: apply prod_le; auto.
      all: apply prod_le; [exact R2|]; apply prod_le; [apply prod_le; auto|auto]. }
    assert (Hh8 : 8 * h52 <= / 64) by (rewrite h52_val; lra).
    assert (GB : Rabs g1 <= 5 / 4 /\ Rabs g2 <= 5 / 4 /\ Rabs g3 <= 5 / 4).
    { pose proof (Rle_0_sqr g1). pose proof (Rle_0_sqr g2). pose proof (Rle_0_sqr g3). unfold Rsqr in *. apply Rabs_le_inv in GG.
      rewrite h52_val in GG. clearbody g1 g2 g3. repeat split; apply Rabs_le; split; nra. }
    destruct GB as (GB1 & GB2 & GB3).
    pose proof (sq_near _ _ _ E1 GB1 ltac:(lra)) as Q1. pose proof (sq_near _ _ _ E2 GB2 ltac:(lra)) as Q2. pose proof (sq_near _ _ _ E3 GB3 ltac:(lra)) as Q3.
    set (S := w1 * w1 + w2 * w2 + w3 * w3).
    assert (SS : Rabs (S - 1) <= 236 * h52 + delta).
    { apply Rabs_le_inv in GG, Q1, Q2, Q3. unfold S. apply Rabs_le. lra. }
    assert (Half : 236 * h52 + delta <= / 2) by (rewrite h52_val; lra).
    assert (HS : / 64 <= S <= 16) by (apply Rabs_le_inv in SS; lra).
    destruct (normal_near (L := L) _ _ _ _ _ _ W1 W2 W3 HS) as (r1 & r2 & r3 & I1 & I2 & I3 & F1 & F2 & F3 & Q). fold S in F1, F2, F3.
    exists r1, r2, r3. cbv zeta. split; [exact I1|]. split; [exact I2|]. split; [exact I3|]. split; [exact Q|].
    (* the cosine *)
    pose proof (sum2 _ _ _ SD) as SD2.
    assert (WD : Rabs (w1 * d1 + w2 * d2 + w3 * d3 - mu) <= 86 * h52).
    { replace (w1 * d1 + w2 * d2 + w3 * d3 - mu) with
        (((w1 - g1) * d1 + (w2 - g2) * d2 + (w3 - g3) * d3) + k * (u1 * d1 + u2 * d2 + u3 * d3) + l * (v1 * d1 + v2 * d2 + v3 * d3)
         + mu * (d1 * d1 + d2 * d2 + d3 * d3 - 1)) by (unfold g1, g2, g3; ring).
      replace (86 * h52) with (8 * h52 * 2 + 1 * (31 * h52) + 1 * (15 * h52) + 1 * (24 * h52)) by ring.
      repeat apply sum_le; [apply dot_le; auto; lra| | |]; apply prod_le; auto. }
    pose proof (inv_sqrt_near (S - 1)) as IS'. replace (1 + (S - 1)) with S in IS' by ring. specialize (IS' ltac:(lra)).
    assert (S0 : 0 < sqrt S) by (apply sqrt_lt_R0; lra).
    replace (r1 * d1 + r2 * d2 + r3 * d3 - mu) with
      (((r1 - w1 / sqrt S) * d1 + (r2 - w2 / sqrt S) * d2 + (r3 - w3 / sqrt S) * d3)
       + (w1 * d1 + w2 * d2 + w3 * d3 - mu) + (w1 * d1 + w2 * d2 + w3 * d3) * (/ sqrt S - 1)) by (field; lra).
    apply Rle_trans with (3 * h52 * 2 + 86 * h52 + 17 / 16 * (236 * h52 + delta)).
    - apply sum_le; [apply sum_le; [apply dot_le; auto; lra|auto]|]. apply prod_le; [|lra].
      replace (w1 * d1 + w2 * d2 + w3 * d3) with (mu + (w1 * d1 + w2 * d2 + w3 * d3 - mu)) by ring.
      replace (17 / 16) with (1 + / 16) by field. apply sum_le; auto. apply Rle_trans with (1 := WD). rewrite h52_val. lra.
    - assert (0 <= delta) by (pose proof (Rabs_pos (C * C + Sn * Sn - 1)); lra). rewrite h52_val. lra.
  Qed.
End Turn.

(** ** The theorems *)
Lemma point_eta {L : Libm} (p : point (F64 L)) : mkPoint (A := F64 L) (px p) (py p) (pz p) = p.
Proof. now destruct p. Qed.
Lemma finite_is64 {L : Libm} (p : point (F64 L)) : finite_point p ->
  is64 (px p) (value (px p)) /\ is64 (py p) (value (py p)) /\ is64 (pz p) (value (pz p)).
Proof. intros ((D1 & F1) & (D2 & F2) & (D3 & F3)). repeat split; now apply double_is64. Qed.
Lemma is64_point {L : Libm} (p : point (F64 L)) a b c : is64 (px p) a -> is64 (py p) b -> is64 (pz p) c ->
  finite_point p /\ value (px p) = a /\ value (py p) = b /\ value (pz p) = c.
Proof.
  intros H1 H2 H3. split; [|repeat split; now apply is64_value].
  split; [|split]; eapply is64_double; eassumption.
Qed.

Lemma C95_normalised_proof :
  forall (L : Libm) (p : point (F64 L)) (big : R),
  finite_point p ->
  powerRZ 2 (-400) <= big <= powerRZ 2 400 ->
  Rabs (value (px p)) <= big -> Rabs (value (py p)) <= big -> Rabs (value (pz p)) <= big ->
  (Rabs (value (px p)) = big \/ Rabs (value (py p)) = big \/ Rabs (value (pz p)) = big) ->
  let d := dir_of_point p in
  unit_up_to (powerRZ 2 (-50)) d
  /\ forall k, k = px \/ k = py \/ k = pz ->
     Rabs (value (k d) - value (k p) / sqrt (scalar p p)) <= powerRZ 2 (-51) * Rabs (value (k p) / sqrt (scalar p p)) + powerRZ 2 (-1021).
Proof.
  intros L p big Fp HB B1 B2 B3 One. destruct (finite_is64 p Fp) as (I1 & I2 & I3).
  rewrite !pow_bpow in *. pose proof (bpow_gt_0 radix2 (-400)) as P4.
  set (x := value (px p)) in *. set (y := value (py p)) in *. set (z := value (pz p)) in *.
  assert (Sq : forall r, Rabs r <= big -> 0 <= r * r <= big * big).
  { intros r Hr. split; [apply Rle_0_sqr|]. rewrite <- (abs_square r). pose proof (Rabs_pos r). nra. }
  assert (Lo : big * big <= x * x + y * y + z * z).
  { pose proof (Sq _ B1). pose proof (Sq _ B2). pose proof (Sq _ B3).
    destruct One as [H'|[H'|H']]; rewrite <- H' at 1 2; rewrite abs_square; lra. }
  assert (HS : bpow radix2 (-800) <= x * x + y * y + z * z <= bpow radix2 802).
  { split.
    - apply Rle_trans with (big * big); [|exact Lo]. change (-800)%Z with (-400 + -400)%Z. rewrite bpow_plus. nra.
    - apply Rle_trans with (3 * (big * big)); [pose proof (Sq _ B1); pose proof (Sq _ B2); pose proof (Sq _ B3); lra|].
      change 802%Z with (2 + (400 + 400))%Z. rewrite !bpow_plus. change (bpow radix2 2) with 4.
      set (q := bpow radix2 400) in *. nra. }
  destruct (normal (L := L) _ _ _ _ _ _ I1 I2 I3 HS) as (a & b & c & J1 & J2 & J3 & E1 & E2 & E3 & Q).
  rewrite point_eta in *. fold x y z in E1, E2, E3. cbv zeta. unfold dir_of_point.
  destruct (is64_point _ _ _ _ J1 J2 J3) as (Fd & V1 & V2 & V3).
  assert (U4 : 4 * u53 = bpow radix2 (-51)) by (rewrite u53_val; change (bpow radix2 (-51)) with (/ 2251799813685248); lra).
  rewrite U4 in *.
  split.
  - split; [exact Fd|]. unfold scalar. rewrite V1, V2, V3. exact Q.
  - unfold scalar. fold x y z. intros k [->|[->| ->]]; [rewrite V1; exact E1|rewrite V2; exact E2|rewrite V3; exact E3].
Qed.

Lemma h24 : 3 * powerRZ 2 (-49) = 24 * h52.
Proof. rewrite pow_bpow, h52_val. change (bpow radix2 (-49)) with (/ 562949953421312). lra. Qed.
Lemma C95_rotated_proof :
  forall (L : Libm) (delta : R) (d : point (F64 L)) (mu phi : spec_float),
  bounded_turn L delta -> delta <= / 4 ->
  unit_up_to (3 * powerRZ 2 (-49)) d ->
  is_double mu -> finite mu -> Rabs (value mu) <= 1 ->
  is_double phi -> finite phi ->
  let d' := dir_rotate d mu phi in
  unit_up_to (powerRZ 2 (-50)) d'
  /\ Rabs (scalar d' d - value mu) <= powerRZ 2 (-43) + 2 * delta.
Proof.
  intros L delta d mu phi HT Hd [Fd Nd] Dm Fm Bm Dp Fp. cbv zeta.
  destruct (HT _ Dp Fp) as (C1 & C2 & C3 & S1 & S2 & S3 & CS).
  destruct (finite_is64 d Fd) as (I1 & I2 & I3). rewrite h24 in Nd. unfold scalar in Nd.
  destruct (turned (L := L) _ _ _ mu phi _ _ _ _ _ _ delta I1 I2 I3 Nd (double_is64 _ Dm Fm) Bm
              (double_is64 _ C1 C2) (double_is64 _ S1 S2) C3 S3 CS Hd) as (a & b & c & J).
  cbv zeta in J. rewrite point_eta in J. destruct J as (J1 & J2 & J3 & Q & W).
  destruct (is64_point _ _ _ _ J1 J2 J3) as (F' & V1 & V2 & V3).
  split; [split; [exact F'|]|]; unfold scalar; rewrite V1, V2, V3, pow_bpow.
  - replace (bpow radix2 (-50)) with (4 * h52); [exact Q|]. rewrite h52_val. change (bpow radix2 (-50)) with (/ 1125899906842624). lra.
  - replace (bpow radix2 (-43)) with (512 * h52); [exact W|]. rewrite h52_val. change (bpow radix2 (-43)) with (/ 8796093022208). lra.
Qed.

Lemma phi64 (L : Libm) (s : mstate) : exists r,
  is64 (nmul (F64 L) (nmul (F64 L) (nofZ (F64 L) 2) c_pi) (fst (runif (Minstd (F64 L)) s))) r.
Proof.
  destruct (unif64 L s) as (u & U & B).
  assert (W : exists w, is64 (SFmul prec64 emax64 (f64_ofZ 2) (npi (F64 L))) w /\ 0 <= w <= 8).
  { set (x := SFmul _ _ _ _). vm_compute in x. exists (value x). split.
    - apply double_is64; [reflexivity|exact I].
    - subst x. unfold value. simpl. lra. }
  destruct W as (w & W & Bw). assert (B32 : bpow radix2 (-32) = / 4294967296) by reflexivity.
  exists (rnd (w * u)). apply is64_mul; [exact W|exact U|]. apply (rnd_small _ 3); [lia|]. change (bpow radix2 3) with 8.
  rewrite Rabs_pos_eq; nra.
Qed.

Lemma C95_any_number_proof :
  forall (L : Libm) (delta : R) (p : particle (F64 L) (Minstd (F64 L))) (turns : list (spec_float * energy (F64 L))),
  bounded_turn L delta -> delta <= / 4 ->
  unit_up_to (3 * powerRZ 2 (-49)) (p_direction p) ->
  (forall mu e, In (mu, e) turns -> is_double mu /\ finite mu /\ Rabs (value mu) <= 1) ->
  let p' := fold_left (fun q t => p_scatter (A := F64 L) q (fst t) (snd t)) turns p in
  unit_up_to (3 * powerRZ 2 (-49)) (p_direction p').
Proof.
  intros L delta p turns HT Hd. revert p. induction turns as [|[mu e] l IH]; intros p Hp Ht; [exact Hp|].
  cbn [fold_left]. apply IH; [|intros m x H; apply (Ht m x); now right].
  destruct (Ht mu e (or_introl eq_refl)) as (Dm & Fm & Bm). cbn [fst snd].
  unfold p_scatter, p_unif. destruct (phi64 L (p_rng p)) as (r & Ir).
  change (p_rng (set_indirect p _)) with (p_rng p).
  destruct (runif (Minstd (F64 L)) (p_rng p)) as [u s'] eqn:Eu. cbn [fst] in Ir.
  change (p_direction (set_energy (set_direction ?q ?x) e)) with x.
  destruct (is64_double _ _ Ir) as [Dr Fr].
  destruct (C95_rotated_proof L delta (p_direction p) mu _ HT Hd Hp Dm Fm Bm Dr Fr) as [[A1 A2] _].
  split; [exact A1|]. apply Rle_trans with (1 := A2). rewrite !pow_bpow.
  change (bpow radix2 (-50)) with (/ 1125899906842624). change (bpow radix2 (-49)) with (/ 562949953421312). lra.
Qed.

Lemma C95_isotropic_proof :
  forall (L : Libm) (delta : R) (s : rst (Minstd (F64 L))),
  bounded_turn L delta -> delta <= powerRZ 2 (-48) ->
  unit_up_to (3 * powerRZ 2 (-49)) (fst (dir_isotropic (Minstd (F64 L)) s)).
Proof.
  intros L delta s HT Hd. pose proof (C80_isotropic_proof L delta s HT) as H. cbv zeta in H.
  destruct H as (D1 & D2 & D3 & F1 & F2 & F3 & _ & _ & _ & H). split; [repeat split; auto|].
  apply Rle_trans with (1 := H). rewrite !pow_bpow in *.
  change (bpow radix2 (-48)) with (/ 281474976710656) in Hd. change (bpow radix2 (-49)) with (/ 562949953421312). lra.
Qed.

Lemma diagonal : exists c, is64 c (5200308914369309 / 9007199254740992)
  /\ (forall L : Libm, dir_xyz (A := F64 L) (f64_ofZ 1) (f64_ofZ 1) (f64_ofZ 1) = mkPoint (A := F64 L) c c c)
  /\ SFsqrt prec64 emax64 (SFsub prec64 emax64 (f64_ofZ 1)
       (let m := SFadd prec64 emax64 (SFadd prec64 emax64 (SFmul prec64 emax64 c c) (SFmul prec64 emax64 c c)) (SFmul prec64 emax64 c c) in
        SFmul prec64 emax64 m m)) = S754_nan.
Proof.
  exists (S754_finite false 5200308914369309 (-53)). split; [|split].
  - replace (5200308914369309 / 9007199254740992) with (value (S754_finite false 5200308914369309 (-53))).
    + apply double_is64; [vm_compute; reflexivity|exact I].
    + unfold value. rewrite pow_bpow. change (bpow radix2 (-53)) with (/ 9007199254740992). lra.
  - intros L. unfold dir_xyz, pnormalize, pdiv, pdot. cbn [px py pz].
    change (ndiv (F64 L)) with (SFdiv prec64 emax64). change (nsqrt (F64 L)) with (SFsqrt prec64 emax64).
    change (nadd (F64 L)) with (SFadd prec64 emax64). change (nmul (F64 L)) with (SFmul prec64 emax64).
    f_equal; vm_compute; reflexivity.
  - vm_compute. reflexivity.
Qed.
Lemma nan_mul x : SFmul prec64 emax64 x S754_nan = S754_nan. Proof. now destruct x. Qed.
Lemma C95_nan_refuted_proof :
  exists x : spec_float, forall L : Libm,
  let d := mkPoint (A := F64 L) x x x in
  d = dir_xyz (A := F64 L) (f64_ofZ 1) (f64_ofZ 1) (f64_ofZ 1)
  /\ unit_up_to (powerRZ 2 (-50)) d
  /\ forall (p : particle (F64 L) (Minstd (F64 L))) (e : energy (F64 L)), p_direction p = d ->
     p_direction (p_scatter p (pdot d d) e) = mkPoint (A := F64 L) S754_nan S754_nan S754_nan.
Proof.
  destruct diagonal as (c & Ic & Ed & En). exists c. intros L. cbv zeta. split; [now rewrite Ed|]. split.
  - split; [split; [|split]; exact (is64_double _ _ Ic)|]. unfold scalar. cbn [px py pz]. rewrite (is64_value _ _ Ic), pow_bpow.
    change (bpow radix2 (-50)) with (/ 1125899906842624). apply Rabs_le. split; lra.
  - intros p e Hp. unfold p_scatter, p_unif. change (p_rng (set_indirect p _)) with (p_rng p).
    destruct (runif (Minstd (F64 L)) (p_rng p)) as [u s']. change (p_direction (set_energy (set_direction ?q ?x) e)) with x.
    change (p_direction (set_rng (set_indirect p _) _)) with (p_direction p). rewrite Hp. cbv beta zeta in En.
    unfold dir_rotate. cbv zeta. change (nsqrt (F64 L)) with (SFsqrt prec64 emax64). unfold pdot. cbn [px py pz].
    change (nsub (F64 L)) with (SFsub prec64 emax64). change (nadd (F64 L)) with (SFadd prec64 emax64). change (nmul (F64 L)) with (SFmul prec64 emax64).
    change (nofZ (F64 L) 1) with (f64_ofZ 1). rewrite En. unfold pscale, padd, dir_of_point, pnormalize, pdiv. cbn [px py pz].
    change (nmul (F64 L)) with (SFmul prec64 emax64). change (nadd (F64 L)) with (SFadd prec64 emax64). change (ndiv (F64 L)) with (SFdiv prec64 emax64).
    assert (M : forall y, SFmul prec64 emax64 S754_nan y = S754_nan) by reflexivity.
    rewrite !M, !nan_mul. reflexivity.
Qed.
Lemma C95_example :
  bounded_turn ideal_libm (powerRZ 2 (-51)) /\ powerRZ 2 (-51) <= powerRZ 2 (-48) <= / 4
  /\ unit_up_to (3 * powerRZ 2 (-49)) (mkPoint (A := F64 ideal_libm) (f64_ofZ 1) (f64_ofZ 0) (f64_ofZ 0))
  /\ let half := SFdiv prec64 emax64 (f64_ofZ (-1)) (f64_ofZ 2) in
     is_double half /\ finite half /\ value half = - / 2.
Proof.
  split; [|split; [|split]].
  - replace (powerRZ 2 (-51)) with (4 * powerRZ 2 (-53)); [exact ideal_turn|]. rewrite !pow_bpow.
    change (bpow radix2 (-53)) with (/ 9007199254740992). change (bpow radix2 (-51)) with (/ 2251799813685248). lra.
  - rewrite !pow_bpow. split; [apply bpow_le; lia|]. change (/ 4) with (bpow radix2 (-2)). apply bpow_le. lia.
  - pose proof (is64_int 0 ltac:(lia)) as I0. pose proof (is64_int 1 ltac:(lia)) as I1.
    destruct (is64_point (L := ideal_libm) (mkPoint (A := F64 ideal_libm) (f64_ofZ 1) (f64_ofZ 0) (f64_ofZ 0)) _ _ _ I1 I0 I0) as (F & V1 & V2 & V3).
    split; [exact F|]. unfold scalar. rewrite V1, V2, V3. replace (1 * 1 + 0 * 0 + 0 * 0 - 1) with 0 by ring. rewrite Rabs_R0.
    rewrite pow_bpow. pose proof (bpow_ge_0 radix2 (-49)). lra.
  - cbv zeta. set (x := SFdiv _ _ _ _). vm_compute in x. split; [reflexivity|]. split; [exact I|]. subst x. unfold value. rewrite pow_bpow.
    change (bpow radix2 (-53)) with (/ 9007199254740992). lra.
Qed.
