(** Printed statistics in binary64: C81. *)
From Coq Require Import Bool String List ZArith NArith Reals Lra Lia SpecFloat.
From Flocq Require Import Core BinarySingleNaN Relative.
From Verif Require Import Model.Num Model.Outcome Model.Rng Model.Point Model.Types Model.Bins
  Model.Particle Model.Estimator
  Spec.DoubleSpec Spec.EstimatorSpec Spec.CountSpec
  Proofs.RealLib Proofs.FloatLib Proofs.FloatReal Proofs.DoubleBins Proofs.DoubleRandom Proofs.CountProofs.
Import ListNotations.
Local Open Scope R_scope.

Notation tiny64 := (bpow radix2 (-1021)).
Lemma rnd_any r : Rabs (rnd r - r) <= u53 * Rabs r + tiny64.
Proof.
  pose proof u53_small. pose proof (Rabs_pos r). pose proof (bpow_gt_0 radix2 (-1021)).
  destruct (Rle_or_lt (bpow radix2 (-1022)) (Rabs r)) as [B|B].
  - pose proof (rnd_rel r B). lra.
  - assert (K : Rabs (rnd r) <= bpow radix2 (-1022)).
    { apply Rabs_lt_inv in B. apply Rabs_le. split.
      - apply rnd_ge_format; [apply generic_format_opp, bpow_format; lia|lra].
      - apply rnd_le_format; [apply bpow_format; lia|lra]. }
    assert (E : tiny64 = 2 * bpow radix2 (-1022)).
    { change (-1021)%Z with (1 + -1022)%Z. rewrite bpow_plus. reflexivity. }
    assert (Rabs (rnd r - r) <= 2 * bpow radix2 (-1022)).
    { unfold Rminus. apply Rle_trans with (1 := Rabs_triang _ _). rewrite Rabs_Ropp. lra. }
    nra.
Qed.

Lemma sqrt_close a b e : 0 <= a -> 0 <= b -> 0 <= e -> Rabs (a - b) <= e -> Rabs (sqrt a - sqrt b) <= sqrt e.
Proof.
  assert (K : forall a b e, 0 <= a -> 0 <= b -> 0 <= e -> a <= b + e -> sqrt a <= sqrt b + sqrt e).
  { clear. intros a b e Ha Hb He H. pose proof (sqrt_pos b). pose proof (sqrt_pos e).
    rewrite <- (sqrt_square (sqrt b + sqrt e)) by lra. apply sqrt_le_1; [lra|nra|].
    pose proof (sqrt_def b Hb). pose proof (sqrt_def e He). nra. }
  intros Ha Hb He H. apply Rabs_le_inv in H. apply Rabs_le.
  pose proof (K a b e Ha Hb He). pose proof (K b a e Hb Ha He). lra.
Qed.

Section Stat.
  Variables S Q w : Z.
  Hypothesis HS : (0 <= S)%Z.
  Hypothesis HSS : (S * S <= 2 ^ 53)%Z.
  Hypothesis HQ : (0 <= Q <= 2 ^ 53)%Z.
  Hypothesis Hw : (1 <= w <= 2 ^ 53)%Z.
  Hypothesis Schwarz : (S * S <= w * Q)%Z.

  Let s := IZR S. Let q := IZR Q. Let n := IZR w.
  Lemma n_pos : 1 <= n. Proof. apply IZR_le. lia. Qed.
  Lemma n_top : n <= 9007199254740992. Proof. apply IZR_le. lia. Qed.
  Lemma q_range : 0 <= q <= 9007199254740992. Proof. split; apply IZR_le; lia. Qed.
  Lemma s_range : 0 <= s <= 9007199254740992.
  Proof. split; apply IZR_le; [lia|]. nia. Qed.
  Lemma ss_range : 0 <= s * s <= 9007199254740992.
  Proof. unfold s. rewrite <- mult_IZR. split; apply IZR_le; nia. Qed.
  Lemma schwarz : s * s / n <= q.
  Proof.
    pose proof n_pos. apply Rmult_le_reg_r with n; [lra|]. unfold Rdiv. rewrite Rmult_assoc, Rinv_l by lra.
    rewrite Rmult_1_r. unfold s, q, n. rewrite <- !mult_IZR. apply IZR_le. lia.
  Qed.
  Lemma quot_range r : 0 <= r <= 9007199254740992 -> 0 <= r / n <= 9007199254740992.
  Proof.
    intros H. pose proof n_pos. split; [apply div_nonneg; lra|].
    apply Rmult_le_reg_r with n; [lra|]. unfold Rdiv. rewrite Rmult_assoc, Rinv_l by lra. nra.
  Qed.
  Lemma fits53 r : 0 <= r <= 9007199254740992 -> Rabs (rnd r) < big.
  Proof. intros H. apply fits. lra. Qed.

  Lemma mean64 : is64 (SFdiv prec64 emax64 (f64_ofZ S) (f64_ofZ w)) (rnd (s / n)).
  Proof.
    pose proof n_pos. pose proof s_range. assert (S <= 2 ^ 53)%Z by nia.
    apply is64_div; [apply is64_int; lia|apply is64_int; lia|fold n; lra|].
    apply fits53. now apply quot_range.
  Qed.
  Lemma mean_close : Rabs (rnd (s / n) - s / n) <= u53 * (s / n).
  Proof.
    pose proof n_pos. pose proof n_top. pose proof s_range. pose proof (quot_range s s_range) as R.
    rewrite <- (Rabs_pos_eq (s / n)) at 3 by lra.
    destruct (Z.eq_dec S 0) as [E|N].
    - unfold s. rewrite E. unfold Rdiv. rewrite Rmult_0_l, rnd_0, Rminus_0_r, Rabs_R0. lra.
    - apply rnd_rel. rewrite Rabs_pos_eq by lra.
      apply Rle_trans with (bpow radix2 (-53)); [apply bpow_le; lia|].
      assert (1 <= s) by (apply IZR_le; lia). rewrite u53_val.
      apply Rle_trans with (/ n); [apply Rinv_le_contravar; lra|].
      assert (0 < / n) by (apply Rinv_0_lt_compat; lra). unfold Rdiv. nra.
  Qed.

  Let g := rnd (s * s / n).
  Let h := rnd (q - g).
  Let k := rnd (sqrt h).
  Lemma q_format : format64 q. Proof. apply int_format. lia. Qed.
  Lemma g_range : 0 <= g <= q.
  Proof.
    pose proof (quot_range _ ss_range). split; [now apply rnd_nonneg|].
    apply rnd_le_format; [exact q_format|exact schwarz].
  Qed.
  Lemma h_range : 0 <= h <= q.
  Proof.
    pose proof g_range. split; [apply rnd_nonneg; lra|]. apply rnd_le_format; [exact q_format|lra].
  Qed.
  Lemma sqrt_h : 0 <= sqrt h <= 9007199254740992.
  Proof.
    pose proof h_range. pose proof q_range. split; [apply sqrt_pos|].
    rewrite <- (sqrt_square 9007199254740992) by lra. apply sqrt_le_1; lra.
  Qed.
  Lemma k_range : 0 <= k <= 9007199254740992.
  Proof.
    pose proof sqrt_h. split; [apply rnd_nonneg; lra|].
    apply rnd_le_format; [exact (bpow_format 53 ltac:(lia))|lra].
  Qed.
  Lemma stddev64 :
    is64 (SFdiv prec64 emax64 (SFsqrt prec64 emax64 (SFsub prec64 emax64 (f64_ofZ Q)
            (SFdiv prec64 emax64 (SFmul prec64 emax64 (f64_ofZ S) (f64_ofZ S)) (f64_ofZ w))))
            (f64_ofZ w)) (rnd (k / n)).
  Proof.
    pose proof n_pos. pose proof s_range. pose proof q_range. assert (S <= 2 ^ 53)%Z by nia.
    assert (Iw : is64 (f64_ofZ w) n) by (apply is64_int; lia).
    assert (Is : is64 (f64_ofZ S) s) by (apply is64_int; lia).
    assert (Iq : is64 (f64_ofZ Q) q) by (apply is64_int; lia).
    assert (Iss : is64 (SFmul prec64 emax64 (f64_ofZ S) (f64_ofZ S)) (s * s)).
    { assert (E : rnd (s * s) = s * s).
      { unfold s. rewrite <- mult_IZR. apply rnd_int. rewrite Z.abs_eq; nia. }
      rewrite <- E. apply is64_mul; auto. apply fits53, ss_range. }
    assert (Ig : is64 (SFdiv prec64 emax64 (SFmul prec64 emax64 (f64_ofZ S) (f64_ofZ S)) (f64_ofZ w)) g).
    { apply is64_div; auto; [lra|]. apply fits53, quot_range, ss_range. }
    pose proof g_range. pose proof h_range.
    apply is64_div; [|exact Iw|lra|apply fits53, quot_range, k_range].
    apply is64_sqrt; [|apply h_range]. apply is64_sub; [exact Iq|exact Ig|]. apply fits53. lra.
  Qed.

  Lemma stddev_close : Rabs (rnd (k / n) - sqrt (q - s * s / n) / n) <= bpow radix2 (-24) * (sqrt q / n).
  Proof.
    pose proof n_pos as N1. pose proof n_top as N2. pose proof q_range as RQ. pose proof schwarz as Sw.
    pose proof g_range as RG. pose proof h_range as RH. pose proof (quot_range _ ss_range) as RS.
    pose proof k_range as RK. pose proof sqrt_h as RSH. pose proof u53_small as U.
    destruct (Z.eq_dec Q 0) as [Z0|NZ].
    { assert (E0 : q = 0) by (unfold q; now rewrite Z0). rewrite E0 in *.
      assert (Eh : h = 0) by lra. assert (Ek : k = 0) by (unfold k; rewrite Eh, sqrt_0; apply rnd_0).
      assert (Ed : 0 - s * s / n = 0) by lra. rewrite Ed, Ek, sqrt_0.
      unfold Rdiv. rewrite Rmult_0_l, rnd_0, Rminus_0_r, Rabs_R0. lra. }
    assert (Q1 : 1 <= q) by (apply IZR_le; lia).
    set (v := q - s * s / n) in *.
    assert (Eg : Rabs (g - s * s / n) <= u53 * q + tiny64).
    { apply Rle_trans with (1 := rnd_any _). rewrite Rabs_pos_eq by lra.
      apply Rplus_le_compat_r, Rmult_le_compat_l; lra. }
    assert (Fg : format64 g).
    { apply generic_format_round; [apply fexp_correct, prec_ok|apply valid_rnd_N]. }
    assert (Eh : Rabs (h - (q - g)) <= u53 * q).
    { apply Rle_trans with (1 := rnd_sub_rel q g q_format Fg). rewrite Rabs_pos_eq by lra.
      apply Rmult_le_compat_l; lra. }
    set (j := tiny64) in *. assert (J0 : 0 < j) by apply bpow_gt_0.
    assert (J1 : j <= u53 * / 1000000000000000000000000000000).
    { assert (B100 : bpow radix2 (-100) = / 1267650600228229401496703205376) by reflexivity.
      apply Rle_trans with (u53 * bpow radix2 (-100)).
      - unfold j. rewrite <- bpow_plus. apply bpow_le. lia.
      - rewrite B100. apply Rmult_le_compat_l; lra. }
    assert (Ev : Rabs (h - v) <= bpow radix2 (-51) * q).
    { assert (B51 : bpow radix2 (-51) = 4 * u53) by (rewrite u53_val; cbn; lra). rewrite B51.
      apply Rabs_le_inv in Eg. apply Rabs_le_inv in Eh. unfold v. apply Rabs_le.
      assert (u53 * 1 <= u53 * q) by (apply Rmult_le_compat_l; lra). lra. }
    assert (V0 : 0 <= v) by (unfold v; lra).
    assert (Er : Rabs (sqrt h - sqrt v) <= bpow radix2 (-25) * sqrt q).
    { assert (P51 : 0 <= bpow radix2 (-51)) by apply bpow_ge_0.
      apply Rle_trans with (1 := sqrt_close h v _ (proj1 RH) V0 (Rmult_le_pos _ _ P51 (proj1 RQ)) Ev).
      rewrite sqrt_mult by lra. apply Rmult_le_compat_r; [apply sqrt_pos|].
      rewrite <- (sqrt_square (bpow radix2 (-25))) by apply bpow_ge_0.
      apply sqrt_le_1; [lra|apply Rmult_le_pos; apply bpow_ge_0|]. rewrite <- bpow_plus.
      apply bpow_le. lia. }
    assert (SQ : 1 <= sqrt q) by (rewrite <- sqrt_1; apply sqrt_le_1; lra).
    assert (Sh : sqrt h <= sqrt q) by (apply sqrt_le_1; lra).
    assert (Ek : Rabs (k - sqrt h) <= u53 * sqrt q + j).
    { apply Rle_trans with (1 := rnd_any _). rewrite Rabs_pos_eq by lra.
      apply Rplus_le_compat_r, Rmult_le_compat_l; lra. }
    set (r := sqrt q) in *. set (m := / n).
    assert (M : / 9007199254740992 <= m <= 1).
    { unfold m. split; [apply Rinv_le_contravar; lra|]. rewrite <- Rinv_1. apply Rinv_le_contravar; lra. }
    assert (Ed : Rabs (rnd (k / n) - k / n) <= u53 * (k / n) + j).
    { apply Rle_trans with (1 := rnd_any _). rewrite Rabs_pos_eq; [apply Rle_refl|]. apply quot_range, RK. }
    apply Rabs_le_inv in Er. apply Rabs_le_inv in Ek. apply Rabs_le_inv in Ed.
    unfold Rdiv in Ed |- *. fold m in Ed |- *.
    assert (B24 : bpow radix2 (-24) = / 16777216) by reflexivity.
    assert (B25 : bpow radix2 (-25) = / 33554432) by reflexivity.
    rewrite B25 in Er. rewrite B24.
    assert (Jr : j <= u53 * r * / 1000000).
    { assert (u53 * 1 <= u53 * r) by (apply Rmult_le_compat_l; lra). lra. }
    assert (Jm : j <= r * m * / 1000000000000).
    { apply Rle_trans with (u53 * / 1000000000000000000000000000000); [exact J1|].
      assert (1 * / 9007199254740992 <= r * m) by (apply Rmult_le_compat; lra). lra. }
    assert (Ur : u53 * r <= / 9007199254740992 * r) by (apply Rmult_le_compat_r; lra).
    assert (Ku : k <= 2 * r) by lra.
    assert (Kd : Rabs (k - sqrt v) <= r * (/ 30000000)).
    { apply Rabs_le. lra. }
    assert (Km : u53 * (k * m) <= r * m * (/ 1000000000000)).
    { assert (k * m <= 2 * r * m) by nra. assert (0 <= k * m) by nra. nra. }
    assert (Kn : Rabs (k * m - sqrt v * m) <= r * m * (/ 30000000)).
    { rewrite <- Rmult_minus_distr_r, Rabs_mult, (Rabs_pos_eq m) by lra. nra. }
    apply Rabs_le_inv in Kn. assert (0 <= r * m) by nra.
    apply Rabs_le. lra.
  Qed.
End Stat.

Lemma Zsum_nonneg l : (forall x, In x l -> 0 <= x)%Z -> (0 <= Zsum l)%Z.
Proof.
  induction l as [|x l IH]; intros H; cbn; [lia|]. pose proof (H x (or_introl eq_refl)).
  specialize (IH (fun y Hy => H y (or_intror Hy))). unfold Zsum in IH. lia.
Qed.
(** The square of a sum is at most the number of terms times the sum of the squares. *)
Lemma Zschwarz (l : list Z) :
  (Zsum l * Zsum l <= Z.of_nat (length l) * Zsum (map (fun x => x * x) l))%Z.
Proof.
  assert (K : forall a l, (2 * a * Zsum l <= Z.of_nat (length l) * (a * a) + Zsum (map (fun x => x * x) l))%Z).
  { clear. intros a l. induction l as [|x l IH]; [cbn; lia|].
    cbn [length map]. change (Zsum (x :: l)) with (x + Zsum l)%Z.
    change (Zsum (?y :: ?t)) with (y + Zsum t)%Z. rewrite Nat2Z.inj_succ.
    pose proof (Z.square_nonneg (a - x)). lia. }
  induction l as [|x l IH]; [cbn; lia|].
  cbn [length map]. change (Zsum (x :: l)) with (x + Zsum l)%Z.
  change (Zsum (?y :: ?t)) with (y + Zsum t)%Z. rewrite Nat2Z.inj_succ.
  pose proof (K x l). lia.
Qed.

Lemma nth_error_both {B C} (l : list B) (l' : list C) i x y :
  nth_error l i = Some x -> nth_error l' i = Some y -> nth_error (combine l l') i = Some (x, y).
Proof.
  revert l' i. induction l as [|a l IH]; intros [|c l'] [|i]; cbn; try discriminate.
  - now intros [= ->] [= ->].
  - apply IH.
Qed.

Lemma C81_statistics_proof :
  forall (L : Libm) (G : Rng (F64 L)) (surface : nat) (hs : list (list (particle (F64 L) G)))
    (s s' : scorable (F64 L)) (i : nat),
  counted surface hs s s' -> (i < length (sc_scores s))%nat -> length (sc_squares s) = length (sc_scores s) ->
  let counts := map (bin_crossings (sc_bins s) surface i) hs in
  let total := Zsum counts in
  let squares := Zsum (map (fun c => c * c)%Z counts) in
  let n := Z.of_nat (length hs) in
  (1 <= n <= 2 ^ 53)%Z -> (squares <= 2 ^ 53)%Z -> (total * total <= 2 ^ 53)%Z ->
  exists mean deviation,
    nth_error (sc_means s' (f64_ofZ n)) i = Some mean
    /\ nth_error (sc_stddevs s' (f64_ofZ n)) i = Some deviation
    /\ is_double mean /\ finite mean /\ is_double deviation /\ finite deviation
    /\ 0 <= value deviation
    /\ Rabs (value mean - IZR total / IZR n) <= powerRZ 2 (-53) * (IZR total / IZR n)
    /\ Rabs (value deviation - sqrt (IZR squares - IZR total * IZR total / IZR n) / IZR n)
       <= powerRZ 2 (-24) * (sqrt (IZR squares) / IZR n).
Proof.
  intros L G surface hs s s' i C Hi Hl counts total squares n Hn Hq Ht.
  assert (Nc : forall x, In x counts -> (0 <= x)%Z).
  { intros x Hx. apply in_map_iff in Hx as (h & <- & _). apply howmany_nonneg. }
  assert (T0 : (0 <= total)%Z) by now apply Zsum_nonneg.
  assert (Q0 : (0 <= squares)%Z).
  { apply Zsum_nonneg. intros x Hx. apply in_map_iff in Hx as (c & <- & _). nia. }
  assert (Sw : (total * total <= n * squares)%Z).
  { unfold n. replace (length hs) with (length counts) by apply map_length. apply Zschwarz. }
  pose proof (counted_scores _ _ _ _ C i Hi) as E1.
  assert (E2 : nth_error (sc_squares s') i = Some (f64_ofZ squares)).
  { pose proof (counted_squares _ _ _ _ C i ltac:(lia)) as E2. rewrite E2. unfold squares, counts.
    now rewrite map_map. }
  fold counts in E1. fold total in E1.
  pose proof (mean64 total squares n T0 Ht (conj Q0 Hq) Hn Sw) as M1.
  pose proof (mean_close total squares n T0 Ht (conj Q0 Hq) Hn Sw) as M2.
  pose proof (stddev64 total squares n T0 Ht (conj Q0 Hq) Hn Sw) as D1.
  pose proof (stddev_close total squares n T0 Ht (conj Q0 Hq) Hn Sw) as D2.
  pose proof (k_range total squares n T0 Ht (conj Q0 Hq) Hn Sw) as D3.
  pose proof (n_pos n Hn) as N1.
  exists (SFdiv prec64 emax64 (f64_ofZ total) (f64_ofZ n)),
    (SFdiv prec64 emax64 (SFsqrt prec64 emax64 (SFsub prec64 emax64 (f64_ofZ squares)
       (SFdiv prec64 emax64 (SFmul prec64 emax64 (f64_ofZ total) (f64_ofZ total)) (f64_ofZ n))))
       (f64_ofZ n)).
  split.
  { unfold sc_means. erewrite map_nth_error by exact E1. reflexivity. }
  split.
  { unfold sc_stddevs.
    rewrite (map_nth_error _ _ _ (nth_error_both _ _ _ _ _ E1 E2)). reflexivity. }
  rewrite (is64_value _ _ M1), (is64_value _ _ D1), !pow_bpow.
  destruct (is64_double _ _ M1) as (A1 & A2). destruct (is64_double _ _ D1) as (A3 & A4).
  do 4 (split; [assumption|]). split; [|split; [exact M2|exact D2]].
  apply rnd_nonneg, div_nonneg; lra.
Qed.

Lemma Zsum_repeat {B} (f : B -> Z) (x : B) (n : N) :
  Zsum (map f (repeat x (N.to_nat n))) = (Z.of_N n * f x)%Z.
Proof.
  induction n as [|n IH] using N.peano_ind; [reflexivity|].
  rewrite N2Nat.inj_succ. cbn [repeat map]. change (Zsum (?y :: ?t)) with (y + Zsum t)%Z.
  rewrite IH. lia.
Qed.

Lemma C81_nan_refuted_proof :
  forall (L : Libm) (G : Rng (F64 L)), exists (surface : nat) (hs : list (list (particle (F64 L) G)))
    (b : particle_bins (F64 L)) (s' : scorable (F64 L)),
  length hs = N.to_nat 379625063
  /\ (forall h, In h hs -> crossings surface h = 1%Z)
  /\ few_crossings (2 ^ 53) hs
  /\ counted surface hs (new_scorable "" b) s'
  /\ sc_stddevs s' (f64_ofZ (Z.of_nat (length hs))) = [S754_nan].
Proof.
  intros L G.
  pose (o := mkPoint (A := F64 L) (f64_ofZ 0) (f64_ofZ 0) (f64_ofZ 0)).
  pose (p := set_event (G := G) (set_surface (new_particle (G := G) o o (ContinuousE (A := F64 L) (f64_ofZ 1)) neutron 1 None)
               (Some 0%nat)) leak).
  pose (b := make_pbins (A := F64 L) None NoBins NoBins).
  pose (hs := repeat [p] (N.to_nat 379625063)).
  pose (x := f64_ofZ 379625063).
  assert (One : forall surface, crossings surface [p] = if Nat.eqb 0 surface then 1%Z else 0%Z).
  { intros [|surface]; reflexivity. }
  assert (Bin : bin_crossings b 0 0 [p] = 1%Z) by reflexivity.
  exists 0%nat, hs, b, (mkScorable (A := F64 L) "" b [x] [x]).
  assert (Len : length hs = N.to_nat 379625063) by apply repeat_length.
  split; [exact Len|]. split; [intros h Hh; apply repeat_spec in Hh; rewrite Hh; apply One|].
  split; [|split].
  - intros surface. unfold hs. rewrite Zsum_repeat, One. destruct (Nat.eqb 0 surface); lia.
  - assert (Sz : length (sc_scores (new_scorable (A := F64 L) "" b)) = 1%nat) by reflexivity.
    assert (Sq : length (sc_squares (new_scorable (A := F64 L) "" b)) = 1%nat) by reflexivity.
    split; try reflexivity.
    + intros i Hi. rewrite Sz in Hi. replace i with 0%nat by lia.
      unfold hs. rewrite Zsum_repeat. change (sc_bins (new_scorable "" b)) with b. rewrite Bin. reflexivity.
    + intros i Hi. rewrite Sq in Hi. replace i with 0%nat by lia.
      unfold hs. rewrite Zsum_repeat. change (sc_bins (new_scorable "" b)) with b. rewrite Bin. reflexivity.
  - rewrite Len, N_nat_Z. change (Z.of_N 379625063) with 379625063%Z.
    unfold sc_stddevs. cbn [sc_scores sc_squares combine map fst snd]. f_equal.
Qed.

(** Three histories that cross a surface once, twice and never. *)
Lemma three_histories (L : Libm) (G : Rng (F64 L)) : exists (hs : list (list (particle (F64 L) G)))
    (b : particle_bins (F64 L)) (s' : scorable (F64 L)),
  map (bin_crossings b 0 0) hs = [1; 2; 0]%Z
  /\ length (sc_scores (new_scorable (A := F64 L) "" b)) = 1%nat
  /\ length (sc_squares (new_scorable (A := F64 L) "" b)) = 1%nat
  /\ counted 0 hs (new_scorable "" b) s'.
Proof.
  pose (o := mkPoint (A := F64 L) (f64_ofZ 0) (f64_ofZ 0) (f64_ofZ 0)).
  pose (p := set_event (G := G) (set_surface (new_particle (G := G) o o
               (ContinuousE (A := F64 L) (f64_ofZ 1)) neutron 1 None) (Some 0%nat)) leak).
  pose (b := make_pbins (A := F64 L) None NoBins NoBins).
  exists [[p]; [p; p]; []], b, (mkScorable (A := F64 L) "" b [f64_ofZ 3] [f64_ofZ 5]).
  split; [reflexivity|]. split; [reflexivity|]. split; [reflexivity|].
  split; try reflexivity; intros [|i] Hi; try reflexivity; exfalso;
    cbn in Hi; change (Pos.to_nat 1) with 1%nat in Hi; cbn in Hi; lia.
Qed.
