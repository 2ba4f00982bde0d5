(** Crossing spheres in binary64 (C93). *)
From Coq Require Import Bool List ZArith NArith Reals Lra Lia SpecFloat.
From Flocq Require Import Core BinarySingleNaN Relative Mult_error.
From Verif Require Import Model.Num Model.Outcome Model.Rng Model.Xml Model.Point Model.Surface
  Model.Types Model.Field Spec.DoubleSpec Spec.DoublePlaneSpec
  Proofs.RealLib Proofs.FloatLib Proofs.FloatReal Proofs.DoubleBins Proofs.DoubleStats
  Proofs.DoubleRandom Proofs.DoubleGroups Proofs.DoublePlanes.
Local Open Scope R_scope.

Lemma within1024 r : Rabs r <= 1024 -> Rabs (rnd r) < big.
Proof. intros H. apply (rnd_small r 10); [lia|]. exact H. Qed.
Lemma rnd_below r k : Rabs r <= IZR k -> (0 <= k <= 2 ^ 53)%Z -> Rabs (rnd r) <= IZR k.
Proof.
  intros H Hk. apply Rabs_le. apply Rabs_le_inv in H.
  assert (F : format64 (IZR k)) by (apply int_format; lia). split.
  - apply rnd_ge_format; [now apply generic_format_opp|lra].
  - apply rnd_le_format; [auto|lra].
Qed.
Lemma rnd_format r : format64 (rnd r).
Proof. apply generic_format_round; [apply fexp_correct, prec_ok|apply valid_rnd_N]. Qed.

(** Products and quotients of non-negative numbers. *)
Lemma rnd_low r : 0 <= r -> (1 - u53) * r - tiny64 <= rnd r <= (1 + u53) * r + tiny64.
Proof.
  intros H. pose proof (rnd_any r) as E. rewrite (Rabs_pos_eq r) in E by lra. apply Rabs_le_inv in E. lra.
Qed.
Lemma add_low r s : format64 r -> format64 s -> 0 <= r -> 0 <= s ->
  (1 - u53) * (r + s) <= rnd (r + s) <= (1 + u53) * (r + s).
Proof.
  intros Fr Fs Hr Hs. pose proof (rnd_add_err r s Fr Fs) as E.
  rewrite (Rabs_pos_eq (r + s)) in E by lra. apply Rabs_le_inv in E. lra.
Qed.

(** The square of a rounded product. *)
Lemma square_low p : Rabs p <= 4 -> let a := rnd p in
  (1 - 3 * u53) * (p * p) - 9 * tiny64 <= rnd (a * a) /\ Rabs a <= 4 /\ 0 <= rnd (a * a) <= 16.
Proof.
  intros Hp a. pose proof (rnd_any p) as E. fold a in E. pose proof (Rabs_pos p) as P0.
  assert (Ba : Rabs a <= 4) by (apply (rnd_below p 4); [exact Hp|lia]).
  assert (T0 : 0 < tiny64) by apply bpow_gt_0.
  assert (H : (1 - 2 * u53) * (p * p) - 8 * tiny64 <= a * a).
  { assert (K : Rabs (p * (a - p)) <= Rabs p * (u53 * Rabs p + tiny64)).
    { rewrite Rabs_mult. apply Rmult_le_compat_l; auto. }
    assert (K2 : Rabs p * tiny64 <= 4 * tiny64) by (apply Rmult_le_compat_r; lra).
    assert (K3 : Rabs p * Rabs p = p * p) by (rewrite <- Rabs_mult; apply Rabs_pos_eq; exact (Rle_0_sqr p)).
    apply Rabs_le_inv in K. replace (a * a) with (p * p + 2 * (p * (a - p)) + (a - p) * (a - p)) by ring.
    pose proof (Rle_0_sqr (a - p)) as SQ. unfold Rsqr in SQ.
    replace (Rabs p * (u53 * Rabs p + tiny64)) with (u53 * (Rabs p * Rabs p) + Rabs p * tiny64) in K by ring.
    rewrite K3 in K. lra. }
  assert (Q0 : 0 <= a * a) by exact (Rle_0_sqr a).
  assert (Q1 : a * a <= 16).
  { apply Rabs_le_inv in Ba. nra. }
  pose proof (rnd_low (a * a) Q0) as B. pose proof (Rle_0_sqr p) as Pp. unfold Rsqr in Pp.
  split; [|split; [exact Ba|split]].
  - rewrite u53_val in *. lra.
  - now apply rnd_nonneg.
  - apply (rnd_le_format _ 16); [now apply (int_format 16)|lra].
Qed.

(** The rounded length of a rounded multiple. *)
Lemma length_low x y z t : Rabs x <= 1 -> Rabs y <= 1 -> Rabs z <= 1 -> 0 <= t <= 4 ->
  let a := rnd (x * t) in let b := rnd (y * t) in let c := rnd (z * t) in
  (1 - 5 * u53) * ((x * x + y * y + z * z) * (t * t)) - 32 * tiny64
  <= rnd (rnd (rnd (a * a) + rnd (b * b)) + rnd (c * c)) <= 64.
Proof.
  intros Hx Hy Hz Ht a b c.
  assert (P : forall v, Rabs v <= 1 -> Rabs (v * t) <= 4).
  { intros v Hv. rewrite Rabs_mult, (Rabs_pos_eq t) by lra. pose proof (Rabs_pos v). nra. }
  destruct (square_low _ (P x Hx)) as (A1 & _ & A2). destruct (square_low _ (P y Hy)) as (B1 & _ & B2).
  destruct (square_low _ (P z Hz)) as (C1 & _ & C2). fold a in A1, A2. fold b in B1, B2. fold c in C1, C2.
  pose proof (add_low _ _ (rnd_format (a * a)) (rnd_format (b * b)) (proj1 A2) (proj1 B2)) as S1.
  assert (S0 : 0 <= rnd (rnd (a * a) + rnd (b * b))) by (apply rnd_nonneg; lra).
  pose proof (add_low _ _ (rnd_format (rnd (a * a) + rnd (b * b))) (rnd_format (c * c)) S0 (proj1 C2)) as S2.
  assert (T0 : 0 < tiny64) by apply bpow_gt_0.
  set (px := x * t) in *. set (py := y * t) in *. set (pz := z * t) in *.
  replace ((x * x + y * y + z * z) * (t * t)) with (px * px + py * py + pz * pz) by (unfold px, py, pz; ring).
  pose proof (Rle_0_sqr px). pose proof (Rle_0_sqr py). pose proof (Rle_0_sqr pz). unfold Rsqr in *.
  rewrite u53_val in *. split; lra.
Qed.

(** The distance from the centre. *)
Section Centre.
  Context {L : Libm}.
  Notation A := (F64 L).
  Variables (rad : spec_float) (r : R).
  Hypothesis Ir : is64 rad r.
  Hypothesis Br : bpow radix2 (-300) <= r <= 2.

  Let q := rnd (r * r).
  Lemma r_pos : 0 < r. Proof. pose proof (bpow_gt_0 radix2 (-300)). lra. Qed.
  Lemma tiny_r : tiny64 <= u53 * (r * r) / 1048576.
  Proof.
    pose proof r_pos. apply Rle_trans with (u53 * (bpow radix2 (-300) * bpow radix2 (-300)) / 1048576).
    - change (/ 1048576) with (bpow radix2 (-20)). unfold Rdiv. change (/ 1048576) with (bpow radix2 (-20)).
      rewrite <- !bpow_plus. apply bpow_le. lia.
    - unfold Rdiv. apply Rmult_le_compat_r; [lra|]. apply Rmult_le_compat_l; [apply bpow_ge_0|].
      apply Rmult_le_compat; try apply bpow_ge_0; lra.
  Qed.
  Lemma q_bounds : (1 - 2 * u53) * (r * r) <= q <= (1 + 2 * u53) * (r * r) /\ 0 < q <= 4.
  Proof.
    pose proof r_pos. assert (0 < r * r <= 4) by nra.
    pose proof (rnd_low (r * r) ltac:(lra)) as B. fold q in B. pose proof tiny_r as T.
    rewrite u53_val in *. split; [lra|]. split; [lra|].
    apply (rnd_le_format _ 4); [now apply (int_format 4)|lra].
  Qed.
  Let root := rnd (sqrt (4 * q)).
  Lemma root_bounds : 2 * r * (1 - 3 * u53) <= root <= 5 /\ 0 < root.
  Proof.
    destruct q_bounds as [[Q1 Q2] [Q3 Q4]]. pose proof r_pos.
    assert (H1 : 2 * r * (1 - / 9007199254740992 * / 2 * 3) <= sqrt (4 * q)).
    { set (k := 1 - / 9007199254740992 * / 2 * 3). assert (K : 0 < k) by (unfold k; lra).
      rewrite <- (sqrt_square (2 * r * k)) by (apply Rmult_le_pos; lra). apply sqrt_le_1.
      - apply Rle_0_sqr.
      - lra.
      - replace (2 * r * k * (2 * r * k)) with (4 * ((k * k) * (r * r))) by ring.
        apply Rmult_le_compat_l; [lra|]. apply Rle_trans with (2 := Q1). apply Rmult_le_compat_r; [apply Rle_0_sqr|].
        rewrite u53_val. unfold k. lra. }
    assert (H2 : sqrt (4 * q) <= 4).
    { apply Rle_trans with (sqrt (4 * 4)); [apply sqrt_le_1; lra|rewrite sqrt_square; lra]. }
    pose proof (rnd_low (sqrt (4 * q)) (sqrt_pos _)) as B. fold root in B.
    pose proof tiny_r as T. assert (r * r <= 2 * r) by nra.
    rewrite u53_val in *.
    assert (root <= 5) by (apply (rnd_le_format _ 5); [now apply (int_format 5)|lra]).
    split; [split; lra|lra].
  Qed.
  Let dist := rnd (root / 2).
  Lemma dist_bounds : r * (1 - 5 * u53) <= dist <= 3 /\ 0 < dist.
  Proof.
    destruct root_bounds as [[R1 R2] R3]. pose proof r_pos.
    pose proof (rnd_low (root / 2) ltac:(lra)) as B. fold dist in B. pose proof tiny_r as T.
    assert (r * r <= 2 * r) by nra. rewrite u53_val in *.
    assert (dist <= 3) by (apply (rnd_le_format _ 3); [now apply (int_format 3)|lra]).
    split; [split; lra|]. lra.
  Qed.

  Lemma solve_centre (b c : spec_float) : is64 b 0 -> is64 c (- q) ->
    is64 (SolveQuadratic (A := A) (nofZ A 1) b c) dist.
  Proof.
    intros Ib Ic. destruct q_bounds as [_ [Q3 Q4]]. destruct root_bounds as [[R1 R2] R3].
    destruct dist_bounds as [[D1 D2] D3].
    pose proof (is64_int 0 ltac:(lia)) as I0. pose proof (is64_int 1 ltac:(lia)) as I1.
    pose proof (is64_int 2 ltac:(lia)) as I2. pose proof (is64_int 4 ltac:(lia)) as I4.
    assert (Fq : format64 q) by apply rnd_format.
    assert (Fq4 : format64 (4 * q)).
    { replace (4 * q) with (q * bpow radix2 2) by (change (bpow radix2 2) with 4; ring).
      rewrite fexp_flt in *. apply mult_bpow_pos_exact_FLT; [exact Fq|lia]. }
    unfold SolveQuadratic.
    assert (E1 : is64 (nmul A b b) 0).
    { replace 0 with (rnd (0 * 0)) by (rewrite Rmult_0_l; apply rnd_0). apply is64_mul; auto.
      apply within1024. rewrite Rmult_0_l, Rabs_R0. lra. }
    assert (E2 : is64 (nmul A (nofZ A 4) (nofZ A 1)) 4).
    { replace 4 with (rnd (4 * 1)) by (rewrite Rmult_1_r; apply rnd_id; now apply (int_format 4)).
      apply is64_mul; auto. apply within1024. rewrite Rmult_1_r, Rabs_pos_eq; lra. }
    assert (E3 : is64 (nmul A (nmul A (nofZ A 4) (nofZ A 1)) c) (- (4 * q))).
    { replace (- (4 * q)) with (rnd (4 * - q)).
      - apply is64_mul; auto. apply within1024. apply Rabs_le. lra.
      - replace (4 * - q) with (- (4 * q)) by ring. rewrite rnd_opp. now rewrite rnd_id. }
    assert (E4 : is64 (nsub A (nmul A b b) (nmul A (nmul A (nofZ A 4) (nofZ A 1)) c)) (4 * q)).
    { rewrite <- (rnd_id (4 * q) Fq4). replace (4 * q) with (0 - - (4 * q)) at 1 by ring.
      apply is64_sub; auto. apply within1024. apply Rabs_le. lra. }
    set (disc := nsub A (nmul A b b) (nmul A (nmul A (nofZ A 4) (nofZ A 1)) c)) in *.
    assert (C1 : nleb A disc (nofZ A 0) = false).
    { change (nleb A) with SFleb. change (nofZ A 0) with (f64_ofZ 0). rewrite (is64_leb _ _ _ _ E4 I0).
      apply Rle_bool_false. lra. }
    rewrite C1.
    assert (C2 : nltb A (nofZ A 0) b = false).
    { change (nltb A) with SFltb. change (nofZ A 0) with (f64_ofZ 0). rewrite (is64_ltb _ _ _ _ I0 Ib).
      apply Rlt_bool_false. lra. }
    rewrite C2.
    assert (E5 : is64 (nsqrt A disc) root) by (apply is64_sqrt; [auto|lra]).
    assert (E6 : is64 (nadd A (nopp A b) (nsqrt A disc)) root).
    { assert (Io : is64 (nopp A b) 0).
      { replace 0 with (- 0) by ring. destruct Ib as (bb & -> & Fb & Vb). exists (Bopp bb).
        rewrite B2R_Bopp, Vb. split; [|split; [now rewrite is_finite_Bopp|auto]]. now destruct bb as [[]|[]| |[]]. }
      rewrite <- (rnd_id root (rnd_format _)). replace root with (0 + root) at 1 by ring.
      apply is64_add; auto. apply within1024. apply Rabs_le. lra. }
    assert (E7 : is64 (nmul A (nofZ A 2) (nofZ A 1)) 2).
    { replace 2 with (rnd (2 * 1)) by (rewrite Rmult_1_r; apply rnd_id; now apply (int_format 2)).
      apply is64_mul; auto. apply within1024. rewrite Rmult_1_r, Rabs_pos_eq; lra. }
    assert (E8 : is64 (ndiv A (nadd A (nopp A b) (nsqrt A disc)) (nmul A (nofZ A 2) (nofZ A 1))) dist).
    { apply (is64_div _ _ _ _ E6 E7); [lra|]. apply within1024. apply Rabs_le. lra. }
    assert (Fq2 : format64 (2 * q)).
    { replace (2 * q) with (q * bpow radix2 1) by (change (bpow radix2 1) with 2; ring).
      rewrite fexp_flt in *. apply mult_bpow_pos_exact_FLT; [exact Fq|lia]. }
    assert (E9 : is64 (nmul A (nofZ A 2) c) (- (2 * q))).
    { replace (- (2 * q)) with (rnd (2 * - q)).
      - apply is64_mul; auto. apply within1024. apply Rabs_le. lra.
      - replace (2 * - q) with (- (2 * q)) by ring. rewrite rnd_opp. now rewrite rnd_id. }
    assert (Bn : 0 <= 2 * q / root <= 1024).
    { split; [apply Rmult_le_pos; [lra|now apply Rlt_le, Rinv_0_lt_compat]|].
      apply Rmult_le_reg_r with root; [auto|]. unfold Rdiv. rewrite Rmult_assoc, Rinv_l by lra.
      destruct q_bounds as [[_ Q2] _]. pose proof r_pos. assert (r * r <= 2 * r) by nra.
      rewrite u53_val in *. lra. }
    assert (E10 : is64 (ndiv A (nmul A (nofZ A 2) c) (nadd A (nopp A b) (nsqrt A disc))) (rnd (- (2 * q) / root))).
    { apply (is64_div _ _ _ _ E9 E6); [lra|]. apply within1024.
      replace (- (2 * q) / root) with (- (2 * q / root)) by (field; lra). rewrite Rabs_Ropp, Rabs_pos_eq; lra. }
    assert (C3 : nltb A (nofZ A 0) (ndiv A (nmul A (nofZ A 2) c) (nadd A (nopp A b) (nsqrt A disc))) = false).
    { change (nltb A) with SFltb. change (nofZ A 0) with (f64_ofZ 0). rewrite (is64_ltb _ _ _ _ I0 E10).
      apply Rlt_bool_false. replace (- (2 * q) / root) with (- (2 * q / root)) by (field; lra).
      rewrite rnd_opp. pose proof (rnd_nonneg (2 * q / root) ltac:(lra)). lra. }
    rewrite C3.
    assert (C4 : nltb A (nofZ A 0) (ndiv A (nadd A (nopp A b) (nsqrt A disc)) (nmul A (nofZ A 2) (nofZ A 1))) = true).
    { change (nltb A) with SFltb. change (nofZ A 0) with (f64_ofZ 0). rewrite (is64_ltb _ _ _ _ I0 E8).
      now apply Rlt_bool_true. }
    rewrite C4. exact E8.
  Qed.
End Centre.

Section Dot.
  Context {L : Libm}.
  Notation A := (F64 L).
  Definition dot64 (a1 a2 a3 b1 b2 b3 : R) : R := rnd (rnd (rnd (a1 * b1) + rnd (a2 * b2)) + rnd (a3 * b3)).
  Lemma is64_dot (x1 x2 x3 y1 y2 y3 : spec_float) a1 a2 a3 b1 b2 b3 :
    is64 x1 a1 -> is64 x2 a2 -> is64 x3 a3 -> is64 y1 b1 -> is64 y2 b2 -> is64 y3 b3 ->
    Rabs a1 <= 8 -> Rabs a2 <= 8 -> Rabs a3 <= 8 -> Rabs b1 <= 8 -> Rabs b2 <= 8 -> Rabs b3 <= 8 ->
    is64 (pdot (A := A) (mkPoint (A := A) x1 x2 x3) (mkPoint (A := A) y1 y2 y3)) (dot64 a1 a2 a3 b1 b2 b3)
    /\ Rabs (dot64 a1 a2 a3 b1 b2 b3) <= 512.
  Proof.
    intros X1 X2 X3 Y1 Y2 Y3 A1 A2 A3 B1 B2 B3.
    assert (K : forall a b, Rabs a <= 8 -> Rabs b <= 8 -> Rabs (a * b) <= 64).
    { intros a b Ha Hb. rewrite Rabs_mult. pose proof (Rabs_pos a). pose proof (Rabs_pos b). nra. }
    assert (M : forall x y a b, is64 x a -> is64 y b -> Rabs a <= 8 -> Rabs b <= 8 ->
                is64 (nmul A x y) (rnd (a * b)) /\ Rabs (rnd (a * b)) <= 64).
    { intros x y a b Ix Iy Ha Hb. specialize (K a b Ha Hb). split.
      - apply is64_mul; auto. apply within1024. lra.
      - apply (rnd_below _ 64); [exact K|lia]. }
    destruct (M _ _ _ _ X1 Y1 A1 B1) as [I1 C1]. destruct (M _ _ _ _ X2 Y2 A2 B2) as [I2 C2].
    destruct (M _ _ _ _ X3 Y3 A3 B3) as [I3 C3].
    assert (S1 : Rabs (rnd (a1 * b1) + rnd (a2 * b2)) <= 128) by (apply Rle_trans with (1 := Rabs_triang _ _); lra).
    pose proof (rnd_below _ 128 S1 ltac:(lia)) as S2.
    assert (S3 : Rabs (rnd (rnd (a1 * b1) + rnd (a2 * b2)) + rnd (a3 * b3)) <= 192)
      by (apply Rle_trans with (1 := Rabs_triang _ _); lra).
    split.
    - unfold pdot, dot64. cbn [px py pz]. apply is64_add; [|exact I3|apply within1024; lra].
      apply is64_add; [exact I1|exact I2|apply within1024; lra].
    - unfold dot64. pose proof (rnd_below _ 192 S3 ltac:(lia)). lra.
  Qed.
End Dot.

Lemma C93_centre_partial_proof : forall (L : Libm) (radius : spec_float) (w : point (F64 L)),
  let O := mkPoint (A := F64 L) (f64_ofZ 0) (f64_ofZ 0) (f64_ofZ 0) in
  is_double radius -> finite radius -> powerRZ 2 (-300) <= value radius <= 5 / 4 ->
  ordinary_point 1 w ->
  1 - powerRZ 2 (-50) <= value (px w) * value (px w) + value (py w) * value (py w) + value (pz w) * value (pz w) ->
  let sphere := Sphere (A := F64 L) O radius in
  let after := padd O (pscale w (nadd (F64 L) (distance sphere O w) nudge)) in
  contains sphere O = true /\ contains sphere after = false.
Proof.
  intros L radius w O Dr Fr Br Hw Hunit sphere after.
  pose proof (double_is64 _ Dr Fr) as Ir. set (r := value radius) in *.
  destruct w as [wx wy wz]. destruct Hw as (Hx & Hy & Hz). cbn [px py pz] in *.
  apply ordinary_is64 in Hx as [Ix Bx], Hy as [Iy By], Hz as [Iz Bz].
  set (x := value wx) in *. set (y := value wy) in *. set (z := value wz) in *.
  rewrite !pow_bpow in *.
  assert (Br' : bpow radix2 (-300) <= r <= 2) by lra.
  pose proof (r_pos r Br') as R0. pose proof (is64_int 0 ltac:(lia)) as I0.
  assert (Z8 : Rabs 0 <= 8) by (rewrite Rabs_R0; lra).
  assert (Dz : forall a b c, Rabs a <= 8 -> Rabs b <= 8 -> Rabs c <= 8 -> dot64 0 0 0 a b c = 0).
  { intros a b c _ _ _. unfold dot64. rewrite !Rmult_0_l, rnd_0, Rplus_0_l, rnd_0, Rplus_0_l. apply rnd_0. }
  assert (Isub : is64 (nsub (F64 L) (f64_ofZ 0) (f64_ofZ 0)) 0).
  { replace 0 with (rnd (0 - 0)) by (rewrite Rminus_0_r; apply rnd_0). apply is64_sub; auto.
    apply within1024. rewrite Rminus_0_r, Rabs_R0. lra. }
  assert (Iq : is64 (nmul (F64 L) radius radius) (rnd (r * r))).
  { apply is64_mul; auto. apply within1024. rewrite Rabs_pos_eq; nra. }
  destruct (q_bounds r Br') as [[Q1 Q2] [Q3 Q4]].
  (* the distance *)
  assert (Id : is64 (distance sphere O (mkPoint (A := F64 L) wx wy wz)) (rnd (rnd (sqrt (4 * rnd (r * r))) / 2))).
  { unfold sphere. cbn [distance]. apply solve_centre; auto.
    - assert (Idot : is64 (pdot (psub O O) (mkPoint (A := F64 L) wx wy wz)) 0).
      { rewrite <- (Dz x y z) by lra. apply is64_dot; auto; lra. }
      replace 0 with (rnd (2 * 0)) by (rewrite Rmult_0_r; apply rnd_0). apply is64_mul; auto.
      + now apply (is64_int 2).
      + apply within1024. rewrite Rmult_0_r, Rabs_R0. lra.
    - assert (Idot : is64 (pdot (psub O O) (psub O O)) 0).
      { rewrite <- (Dz 0 0 0) by lra. apply is64_dot; auto. }
      rewrite <- (rnd_id (- rnd (r * r))).
      + replace (- rnd (r * r)) with (0 - rnd (r * r)) by ring. apply is64_sub; auto.
        apply within1024. apply Rabs_le. lra.
      + apply generic_format_opp, rnd_format. }
  destruct (dist_bounds r Br') as [[D1 D2] D3]. set (d := rnd (rnd (sqrt (4 * rnd (r * r))) / 2)) in *.
  set (t := rnd (d + push)).
  assert (Pp : 0 < push <= 1) by (unfold push; rewrite u53_val; lra).
  assert (It : is64 (nadd (F64 L) (distance sphere O (mkPoint (A := F64 L) wx wy wz)) nudge) t).
  { apply is64_add; [exact Id|apply nudge64|]. apply within1024. apply Rabs_le. lra. }
  pose proof (add_low d push (rnd_format _) push_format ltac:(lra) ltac:(lra)) as Bt. fold t in Bt.
  assert (T1 : t <= 4) by (apply (rnd_le_format _ 4); [now apply (int_format 4)|lra]).
  assert (T0 : 0 <= t) by (apply rnd_nonneg; lra).
  set (t64 := nadd (F64 L) (distance sphere O (mkPoint (A := F64 L) wx wy wz)) nudge) in *.
  (* the coordinates *)
  assert (K : forall v c, is64 v c -> Rabs c <= 1 ->
     is64 (nsub (F64 L) (nadd (F64 L) (f64_ofZ 0) (nmul (F64 L) v t64)) (f64_ofZ 0)) (rnd (c * t))
     /\ Rabs (rnd (c * t)) <= 8).
  { intros v c Iv Bc.
    assert (P : Rabs (c * t) <= 8).
    { rewrite Rabs_mult, (Rabs_pos_eq t) by lra. pose proof (Rabs_pos c). nra. }
    pose proof (rnd_below _ 8 P ltac:(lia)) as P'. split; [|exact P'].
    assert (M : is64 (nmul (F64 L) v t64) (rnd (c * t))) by (apply is64_mul; auto; apply within1024; lra).
    assert (M2 : is64 (nadd (F64 L) (f64_ofZ 0) (nmul (F64 L) v t64)) (rnd (c * t))).
    { rewrite <- (rnd_id (rnd (c * t)) (rnd_format _)). replace (rnd (c * t)) with (0 + rnd (c * t)) at 1 by ring.
      apply is64_add; auto. apply within1024. rewrite Rplus_0_l. lra. }
    rewrite <- (rnd_id (rnd (c * t)) (rnd_format _)). replace (rnd (c * t)) with (rnd (c * t) - 0) at 1 by ring.
    apply is64_sub; auto. apply within1024. rewrite Rminus_0_r. lra. }
  destruct (K wx x Ix Bx) as [Jx Cx]. destruct (K wy y Iy By) as [Jy Cy]. destruct (K wz z Iz Bz) as [Jz Cz].
  destruct (is64_dot (L := L) _ _ _ _ _ _ _ _ _ _ _ _ Jx Jy Jz Jx Jy Jz Cx Cy Cz Cx Cy Cz) as [J _].
  split.
  - unfold sphere. cbn [contains].
    assert (Idot : is64 (pdot (psub O O) (psub O O)) 0).
    { rewrite <- (Dz 0 0 0) by lra. apply is64_dot; auto. }
    change (nltb (F64 L)) with SFltb. rewrite (is64_ltb _ _ _ _ Idot Iq). now apply Rlt_bool_true.
  - unfold sphere, after. cbn [contains].
    change (nltb (F64 L)) with SFltb.
    match goal with |- SFltb ?v _ = _ => assert (E : is64 v (dot64 (rnd (x * t)) (rnd (y * t)) (rnd (z * t))
       (rnd (x * t)) (rnd (y * t)) (rnd (z * t)))) by exact J end.
    rewrite (is64_ltb _ _ _ _ E Iq). apply Rlt_bool_false.
    destruct (length_low x y z t Bx By Bz (conj T0 T1)) as [Low _].
    unfold dot64. apply Rle_trans with (2 := Low). apply Rle_trans with (1 := Q2).
    pose proof (tiny_r r Br') as T.
    assert (Tt : r * (1 + 9 * u53) <= t) by (unfold push in Bt; rewrite u53_val in *; lra).
    assert (Tq : (r * r) * (1 + 18 * u53) <= t * t).
    { apply Rle_trans with ((r * (1 + 9 * u53)) * (r * (1 + 9 * u53))).
      - replace ((r * (1 + 9 * u53)) * (r * (1 + 9 * u53))) with ((r * r) * ((1 + 9 * u53) * (1 + 9 * u53))) by ring.
        apply Rmult_le_compat_l; [apply Rle_0_sqr|]. rewrite u53_val. lra.
      - assert (0 <= r * (1 + 9 * u53)) by (rewrite u53_val; lra). apply Rmult_le_compat; lra. }
    change (bpow radix2 (-50)) with (/ 1125899906842624) in Hunit.
    set (n2 := x * x + y * y + z * z) in *. set (t2 := t * t) in *. set (r2 := r * r) in *.
    assert (r2pos : 0 < r2) by (unfold r2; nra).
    assert (N : (1 - / 1125899906842624) * (r2 * (1 + 18 * u53)) <= n2 * t2).
    { apply Rmult_le_compat; lra. }
    rewrite u53_val in *. lra.
Qed.

(** ** At the sphere itself *)
Lemma rnd_rel_low r : bpow radix2 (-1022) <= r -> (1 - u53) * r <= rnd r <= (1 + u53) * r.
Proof.
  intros H. assert (0 < r) by (pose proof (bpow_gt_0 radix2 (-1022)); lra).
  pose proof (rnd_rel r) as E. rewrite (Rabs_pos_eq r) in E by lra. specialize (E H). apply Rabs_le_inv in E. lra.
Qed.
Lemma fits r e : (e <= 1000)%Z -> (-1074 <= e)%Z -> 0 <= r <= bpow radix2 e -> Rabs (rnd r) < big.
Proof. intros H1 H2 H. apply (rnd_small r e); [lia|]. rewrite Rabs_pos_eq; lra. Qed.

Section Touch.
  Context {L : Libm}.
  Notation A := (F64 L).
  Variables (B : R).
  Hypothesis HB : bpow radix2 (-200) <= B <= bpow radix2 200.
  Hypothesis FB : format64 B.
  Let disc := rnd (B * B).
  Let root := rnd (sqrt disc).
  Let sum := rnd (B + root).
  Let dist := rnd (sum / 2).

  Lemma BB : bpow radix2 (-400) <= B * B <= bpow radix2 400.
  Proof.
    change (-400)%Z with (-200 + -200)%Z. change 400%Z with (200 + 200)%Z. rewrite !bpow_plus.
    pose proof (bpow_ge_0 radix2 (-200)). split; apply Rmult_le_compat; lra.
  Qed.
  Lemma B_pos : 0 < B. Proof. pose proof (bpow_gt_0 radix2 (-200)). lra. Qed.
  Lemma disc_bounds : (1 - u53) * (B * B) <= disc <= (1 + u53) * (B * B) /\ 0 < disc.
  Proof.
    pose proof BB as [H1 H2]. pose proof (rnd_rel_low (B * B)) as E.
    assert (0 < bpow radix2 (-400)) by apply bpow_gt_0.
    assert (E' := E ltac:(apply Rle_trans with (2 := H1); apply bpow_le; lia)). fold disc in E'.
    rewrite u53_val in *. split; lra.
  Qed.
  Lemma sqrt_disc : (1 - u53) * B <= sqrt disc <= (1 + u53) * B.
  Proof.
    destruct disc_bounds as [[D1 D2] D3]. pose proof B_pos as P. rewrite u53_val in *.
    set (k := / 9007199254740992) in *. assert (K : 0 < k < / 100) by (unfold k; lra). split.
    - rewrite <- (sqrt_square ((1 - k) * B)) by (apply Rmult_le_pos; lra). apply sqrt_le_1; [apply Rle_0_sqr|lra|].
      apply Rle_trans with (2 := D1). replace ((1 - k) * B * ((1 - k) * B)) with (((1 - k) * (1 - k)) * (B * B)) by ring.
      apply Rmult_le_compat_r; [apply Rle_0_sqr|]. nra.
    - rewrite <- (sqrt_square ((1 + k) * B)) by (apply Rmult_le_pos; lra). apply sqrt_le_1; [lra|apply Rle_0_sqr|].
      apply Rle_trans with (1 := D2). replace ((1 + k) * B * ((1 + k) * B)) with (((1 + k) * (1 + k)) * (B * B)) by ring.
      apply Rmult_le_compat_r; [apply Rle_0_sqr|]. nra.
  Qed.
  Lemma B_big : bpow radix2 (-1022) <= B / 4.
  Proof.
    apply Rle_trans with (bpow radix2 (-200) / 4); [|lra].
    unfold Rdiv. change (/ 4) with (bpow radix2 (-2)). rewrite <- bpow_plus. apply bpow_le. lia.
  Qed.
  Lemma root_near : (1 - 3 * u53) * B <= root <= (1 + 3 * u53) * B.
  Proof.
    destruct sqrt_disc as [S1 S2]. pose proof B_big. pose proof B_pos. rewrite u53_val in *.
    pose proof (rnd_rel_low (sqrt disc) ltac:(lra)) as E. fold root in E. rewrite u53_val in E. lra.
  Qed.
  Lemma sum_near : (1 - 3 * u53) * (2 * B) <= sum <= (1 + 3 * u53) * (2 * B).
  Proof.
    destruct root_near as [S1 S2]. pose proof B_big. pose proof B_pos. rewrite u53_val in *.
    pose proof (rnd_rel_low (B + root) ltac:(lra)) as E. fold sum in E. rewrite u53_val in E. lra.
  Qed.
  Lemma dist_near : (1 - 5 * u53) * B <= dist <= (1 + 5 * u53) * B.
  Proof.
    destruct sum_near as [S1 S2]. pose proof B_big. pose proof B_pos. rewrite u53_val in *.
    pose proof (rnd_rel_low (sum / 2) ltac:(lra)) as E. fold dist in E. rewrite u53_val in E. lra.
  Qed.
  Lemma B_fits k : 0 <= k <= 1024 -> 0 <= k * B <= bpow radix2 210.
  Proof.
    intros Hk. pose proof B_pos. split; [apply Rmult_le_pos; lra|].
    change 210%Z with (10 + 200)%Z. rewrite bpow_plus. apply Rmult_le_compat; try lra. change (bpow radix2 10) with 1024. lra.
  Qed.

  Lemma solve_touch (b c : spec_float) : is64 b (- B) -> is64 c 0 ->
    is64 (SolveQuadratic (A := A) (nofZ A 1) b c) dist.
  Proof.
    intros Ib Ic. pose proof B_pos as P. pose proof BB as [BB1 BB2]. destruct disc_bounds as [[D1 D2] D3].
    destruct root_near as [R1 R2]. destruct sum_near as [S1 S2]. destruct dist_near as [T1 T2].
    pose proof (is64_int 0 ltac:(lia)) as I0. pose proof (is64_int 1 ltac:(lia)) as I1.
    pose proof (is64_int 2 ltac:(lia)) as I2. pose proof (is64_int 4 ltac:(lia)) as I4.
    assert (Z : Rabs (rnd 0) < big) by (apply within1024; rewrite Rabs_R0; lra).
    unfold SolveQuadratic.
    assert (E1 : is64 (nmul A b b) disc).
    { unfold disc. replace (B * B) with (- B * - B) by ring. apply is64_mul; auto.
      replace (- B * - B) with (B * B) by ring. apply (fits _ 400); try lia. split; [apply Rle_0_sqr|lra]. }
    assert (E2 : is64 (nmul A (nofZ A 4) (nofZ A 1)) 4).
    { replace 4 with (rnd (4 * 1)) by (rewrite Rmult_1_r; apply rnd_id; now apply (int_format 4)).
      apply is64_mul; auto. apply within1024. rewrite Rmult_1_r, Rabs_pos_eq; lra. }
    assert (E3 : is64 (nmul A (nmul A (nofZ A 4) (nofZ A 1)) c) 0).
    { replace 0 with (rnd (4 * 0)) by (rewrite Rmult_0_r; apply rnd_0). apply is64_mul; auto.
      now rewrite Rmult_0_r. }
    assert (E4 : is64 (nsub A (nmul A b b) (nmul A (nmul A (nofZ A 4) (nofZ A 1)) c)) disc).
    { rewrite <- (rnd_id disc (rnd_format _)). replace disc with (disc - 0) at 1 by ring.
      apply is64_sub; auto. rewrite Rminus_0_r. rewrite (rnd_id disc (rnd_format _)).
      unfold disc. apply (fits _ 400); try lia. split; [apply Rle_0_sqr|lra]. }
    set (dsc := nsub A (nmul A b b) (nmul A (nmul A (nofZ A 4) (nofZ A 1)) c)) in *.
    assert (C1 : nleb A dsc (nofZ A 0) = false).
    { change (nleb A) with SFleb. change (nofZ A 0) with (f64_ofZ 0). rewrite (is64_leb _ _ _ _ E4 I0).
      apply Rle_bool_false. lra. }
    rewrite C1.
    assert (C2 : nltb A (nofZ A 0) b = false).
    { change (nltb A) with SFltb. change (nofZ A 0) with (f64_ofZ 0). rewrite (is64_ltb _ _ _ _ I0 Ib).
      apply Rlt_bool_false. lra. }
    rewrite C2.
    assert (E5 : is64 (nsqrt A dsc) root) by (apply is64_sqrt; [auto|lra]).
    assert (Io : is64 (nopp A b) B).
    { replace B with (- - B) by ring. destruct Ib as (bb & -> & Fb & Vb). exists (Bopp bb).
      rewrite B2R_Bopp, Vb. split; [|split; [now rewrite is_finite_Bopp|auto]]. now destruct bb as [[]|[]| |[]]. }
    pose proof (B_fits 3 ltac:(lra)) as F3. rewrite u53_val in *.
    assert (E6 : is64 (nadd A (nopp A b) (nsqrt A dsc)) sum).
    { apply is64_add; auto. apply (fits _ 210); try lia. lra. }
    assert (E7 : is64 (nmul A (nofZ A 2) (nofZ A 1)) 2).
    { replace 2 with (rnd (2 * 1)) by (rewrite Rmult_1_r; apply rnd_id; now apply (int_format 2)).
      apply is64_mul; auto. apply within1024. rewrite Rmult_1_r, Rabs_pos_eq; lra. }
    assert (E8 : is64 (ndiv A (nadd A (nopp A b) (nsqrt A dsc)) (nmul A (nofZ A 2) (nofZ A 1))) dist).
    { apply (is64_div _ _ _ _ E6 E7); [lra|]. apply (fits _ 210); try lia. lra. }
    assert (E9 : is64 (nmul A (nofZ A 2) c) 0).
    { replace 0 with (rnd (2 * 0)) by (rewrite Rmult_0_r; apply rnd_0). apply is64_mul; auto.
      now rewrite Rmult_0_r. }
    assert (E10 : is64 (ndiv A (nmul A (nofZ A 2) c) (nadd A (nopp A b) (nsqrt A dsc))) 0).
    { rewrite <- rnd_0. replace 0 with (0 / sum) at 1 by (field; lra). apply (is64_div _ _ _ _ E9 E6); [lra|].
      replace (0 / sum) with 0 by (field; lra). exact Z. }
    assert (C3 : nltb A (nofZ A 0) (ndiv A (nmul A (nofZ A 2) c) (nadd A (nopp A b) (nsqrt A dsc))) = false).
    { change (nltb A) with SFltb. change (nofZ A 0) with (f64_ofZ 0). rewrite (is64_ltb _ _ _ _ I0 E10).
      apply Rlt_bool_false. lra. }
    rewrite C3.
    assert (C4 : nltb A (nofZ A 0) (ndiv A (nadd A (nopp A b) (nsqrt A dsc)) (nmul A (nofZ A 2) (nofZ A 1))) = true).
    { change (nltb A) with SFltb. change (nofZ A 0) with (f64_ofZ 0). rewrite (is64_ltb _ _ _ _ I0 E8).
      apply Rlt_bool_true. lra. }
    rewrite C4. exact E8.
  Qed.
End Touch.

Lemma C93_touching_refuted_proof :
  forall (L : Libm) (center : point (F64 L)) (radius : spec_float) (o w : point (F64 L)),
  let oc := psub o center in
  (* as far from the centre as the radius, and flying inwards *)
  let square := nmul (F64 L) radius radius in
  is_double square -> finite square -> pdot oc oc = square ->
  let inwards := pdot oc w in
  is_double inwards -> finite inwards -> powerRZ 2 (-190) <= - value inwards <= powerRZ 2 190 ->
  let sphere := Sphere (A := F64 L) center radius in
  let chord := 2 * - value inwards in
  contains sphere o = false
  /\ is_double (distance sphere o w) /\ finite (distance sphere o w)
  /\ Rabs (value (distance sphere o w) - chord) <= powerRZ 2 (-50) * chord.
Proof.
  intros L center radius o w oc square Dq Fq Esq inwards Di Fi Hi sphere chord.
  pose proof (double_is64 _ Dq Fq) as Iq. pose proof (double_is64 _ Di Fi) as Ii.
  set (h := value inwards) in *. rewrite !pow_bpow in *.
  pose proof (is64_format _ _ Ii) as Fh.
  assert (B1 : bpow radix2 (-200) <= bpow radix2 (-190)) by (apply bpow_le; lia).
  assert (B2 : 2 * bpow radix2 190 <= bpow radix2 200).
  { change 2 with (bpow radix2 1). rewrite <- bpow_plus. apply bpow_le. lia. }
  assert (P : 0 < bpow radix2 (-190)) by apply bpow_gt_0.
  assert (HB : bpow radix2 (-200) <= chord <= bpow radix2 200) by (unfold chord; lra).
  assert (Fc : format64 chord).
  { unfold chord. replace (2 * - h) with (- h * bpow radix2 1) by (change (bpow radix2 1) with 2; ring).
    rewrite fexp_flt in *. apply mult_bpow_pos_exact_FLT; [now apply generic_format_opp|lia]. }
  assert (Ib : is64 (nmul (F64 L) (nofZ (F64 L) 2) inwards) (- chord)).
  { replace (- chord) with (rnd (2 * h)).
    - apply is64_mul; [now apply (is64_int 2)|exact Ii|].
      replace (2 * h) with (- chord) by (unfold chord; ring). rewrite rnd_opp, Rabs_Ropp.
      apply (fits _ 200); try lia. unfold chord in *. lra.
    - replace (2 * h) with (- chord) by (unfold chord; ring). rewrite rnd_opp. now rewrite rnd_id. }
  assert (Ic : is64 (nsub (F64 L) (pdot oc oc) square) 0).
  { rewrite Esq. rewrite <- rnd_0. replace 0 with (value square - value square) at 1 by ring.
    apply is64_sub; auto. apply within1024. rewrite Rminus_diag_eq by reflexivity. rewrite Rabs_R0. lra. }
  pose proof (solve_touch (L := L) chord HB _ _ Ib Ic) as Id.
  change (SolveQuadratic (nofZ (F64 L) 1) (nmul (F64 L) (nofZ (F64 L) 2) inwards) (nsub (F64 L) (pdot oc oc) square))
    with (distance sphere o w) in Id.
  split; [|split; [|split]].
  - unfold sphere. cbn [contains]. fold oc. fold square. rewrite Esq.
    change (nltb (F64 L)) with SFltb. rewrite (is64_ltb _ _ _ _ Iq Iq). apply Rlt_bool_false. lra.
  - apply (is64_double _ _ Id).
  - apply (is64_double _ _ Id).
  - rewrite (is64_value _ _ Id). pose proof (dist_near chord HB) as N.
    change (bpow radix2 (-50)) with (/ 1125899906842624). rewrite u53_val in N.
    assert (0 < chord) by (unfold chord; lra). apply Rabs_le. lra.
Qed.

Lemma C93_example : forall L : Libm,
  let w := mkPoint (A := F64 L) (f64_ofZ 1) (f64_ofZ 0) (f64_ofZ 0) in
  ordinary_point 1 w
  /\ powerRZ 2 (-300) <= value (f64_ofZ 1) <= 5 / 4
  /\ 1 - powerRZ 2 (-50) <= value (px w) * value (px w) + value (py w) * value (py w) + value (pz w) * value (pz w)
  (* at 20 on a sphere of radius 20, flying to its centre *)
  /\ (let o := mkPoint (A := F64 L) (f64_ofZ 20) (f64_ofZ 0) (f64_ofZ 0) in
      let back := mkPoint (A := F64 L) (f64_ofZ (-1)) (f64_ofZ 0) (f64_ofZ 0) in
      let O := mkPoint (A := F64 L) (f64_ofZ 0) (f64_ofZ 0) (f64_ofZ 0) in
      let oc := psub o O in
      pdot oc oc = nmul (F64 L) (f64_ofZ 20) (f64_ofZ 20) /\ pdot oc back = f64_ofZ (-20)).
Proof.
  intros L w. unfold w, ordinary_point. cbv zeta. cbn [px py pz].
  assert (O1 : forall z, (Z.abs z <= 1)%Z -> ordinary 1 (f64_ofZ z)).
  { intros z Hz. apply ordinary_int; [lia|]. rewrite <- abs_IZR. now apply IZR_le. }
  rewrite !int_value by lia.
  split; [repeat split; apply O1; lia|]. split.
  { split; [|lra]. rewrite pow_bpow. change 1 with (bpow radix2 0). apply bpow_le. lia. }
  split.
  { rewrite pow_bpow. pose proof (bpow_ge_0 radix2 (-50)). lra. }
  split; reflexivity.
Qed.
