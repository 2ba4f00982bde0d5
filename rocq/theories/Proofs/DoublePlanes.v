(** Crossing planes in binary64 (C92). *)
From Coq Require Import Bool List ZArith NArith Reals Lra Lia SpecFloat.
From Flocq Require Import Core BinarySingleNaN Relative.
From Verif Require Import Model.Num Model.Outcome Model.Rng Model.Xml Model.Point Model.Surface
  Model.Types Model.Field Spec.DoubleSpec Spec.DoublePlaneSpec
  Proofs.RealLib Proofs.FloatLib Proofs.FloatReal Proofs.DoubleBins Proofs.DoubleStats
  Proofs.DoubleRandom.
Local Open Scope R_scope.

Lemma rnd_opp r : rnd (- r) = - rnd r.
Proof. apply round_NE_opp. Qed.
Lemma rnd_add_err r s : format64 r -> format64 s -> Rabs (rnd (r + s) - (r + s)) <= u53 * Rabs (r + s).
Proof.
  intros Fr Fs. pose proof (rnd_sub_rel r (- s) Fr (generic_format_opp _ _ _ Fs)) as E.
  now replace (r - - s) with (r + s) in E by ring.
Qed.
Lemma tiny_le : tiny64 <= u53 * bpow radix2 (-960).
Proof.
  rewrite <- bpow_plus. apply bpow_le. lia.
Qed.

(** ** How far the particle gets *)
Definition push : R := 20 * u53.
Lemma push_format : format64 push.
Proof.
  replace push with (5 * bpow radix2 (-51)).
  - apply (is64_format (S754_finite false 5629499534213120 (-101))).
    replace (5 * bpow radix2 (-51)) with (value (S754_finite false 5629499534213120 (-101))).
    + apply double_is64; [reflexivity|exact Logic.I].
    + cbn [value]. rewrite pow_bpow. change (bpow radix2 (-101)) with (bpow radix2 (-50 + -51)).
      rewrite bpow_plus. change (bpow radix2 (-50)) with (/ 1125899906842624). lra.
  - unfold push. change (bpow radix2 (-53)) with (bpow radix2 (-2 + -51)). rewrite bpow_plus.
    change (bpow radix2 (-2)) with (/ 4). lra.
Qed.

(** The components of a flight over the distance [D] to a plane, with the push. *)
Definition length_to (D W : R) : R := rnd (rnd (rnd D / W) + push).

Lemma int_format z : (Z.abs z <= 2 ^ 53)%Z -> format64 (IZR z).
Proof. intros H. apply (is64_format (f64_ofZ z)). now apply is64_int. Qed.

Section Up.
  Variables c x W : R.
  Hypothesis Fc : format64 c.
  Hypothesis Fx : format64 x.
  Hypothesis FW : format64 W.
  Let D := c - x.
  Hypothesis HD : 0 < D.
  Hypothesis HW : bpow radix2 (-900) <= W <= 1.
  Hypothesis Hnear : 4 * D <= 19 * W.

  Lemma W_pos : 0 < W. Proof. pose proof (bpow_gt_0 radix2 (-900)). lra. Qed.
  Lemma to_plane : (1 - u53) * D <= rnd D <= (1 + u53) * D.
  Proof.
    pose proof (rnd_sub_rel c x Fc Fx) as E. fold D in E. rewrite (Rabs_pos_eq D) in E by lra.
    apply Rabs_le_inv in E. lra.
  Qed.
  Lemma quotient : 0 < rnd D / W <= 5 /\ W * (rnd D / W) = rnd D.
  Proof.
    pose proof to_plane as B. pose proof W_pos as Wp. rewrite u53_val in B.
    split; [split|].
    - apply Rdiv_lt_0_compat; lra.
    - apply Rmult_le_reg_r with W; [lra|]. unfold Rdiv. rewrite Rmult_assoc, Rinv_l by lra. lra.
    - field. lra.
  Qed.
  Let d := rnd (rnd D / W).
  Lemma d_bounds : 0 <= d <= 5 /\ W * d >= rnd D - u53 * rnd D - W * tiny64
                  /\ W * d <= rnd D + u53 * rnd D + W * tiny64.
  Proof.
    destruct quotient as [[Q1 Q2] Q3]. pose proof W_pos as Wp. split; [split|].
    - apply rnd_nonneg. lra.
    - apply rnd_le_format; [now apply (int_format 5)|lra].
    - pose proof (rnd_any (rnd D / W)) as E. rewrite (Rabs_pos_eq (rnd D / W)) in E by lra. apply Rabs_le_inv in E.
      fold d in E. set (q := rnd D / W) in *.
      assert (W * (q - u53 * q - tiny64) <= W * d) by (apply Rmult_le_compat_l; lra).
      assert (W * d <= W * (q + u53 * q + tiny64)) by (apply Rmult_le_compat_l; lra).
      replace (W * (q - u53 * q - tiny64)) with (W * q - u53 * (W * q) - W * tiny64) in * by ring.
      replace (W * (q + u53 * q + tiny64)) with (W * q + u53 * (W * q) + W * tiny64) in * by ring.
      rewrite Q3 in *.
      split; lra.
  Qed.
  Let s := length_to D W.
  Lemma s_bounds : 0 <= s <= 6 /\ (1 - u53) * (d + push) <= s <= (1 + u53) * (d + push).
  Proof.
    destruct d_bounds as ((D1 & D2) & _).
    assert (Fd : format64 d) by (apply generic_format_round; [apply fexp_correct, prec_ok|apply valid_rnd_N]).
    assert (Pp : 0 < push <= 1) by (unfold push; rewrite u53_val; lra).
    pose proof (rnd_add_err d push Fd push_format) as E. unfold s, length_to. fold d.
    rewrite (Rabs_pos_eq (d + push)) in E by lra.
    apply Rabs_le_inv in E. split; [|lra]. split; [apply rnd_nonneg; lra|].
    apply rnd_le_format; [now apply (int_format 6)|lra].
  Qed.
  (** What is added to the coordinate. *)
  Let m := rnd (W * s).
  Lemma m_bounds : D + u53 * (19 * W - 4 * D) + u53 * W / 2 <= m <= 16.
  Proof.
    destruct d_bounds as ((D1 & D2) & D3 & D4). destruct s_bounds as ((S1 & S2) & S3 & S4).
    pose proof to_plane as B. pose proof W_pos as Wp.
    assert (T : W * tiny64 <= tiny64).
    { rewrite <- (Rmult_1_l tiny64) at 2. apply Rmult_le_compat_r; [apply bpow_ge_0|lra]. }
    assert (T' : tiny64 <= u53 * (W / 1024)).
    { apply Rle_trans with (1 := tiny_le). apply Rmult_le_compat_l; [apply bpow_ge_0|].
      apply Rle_trans with (bpow radix2 (-900) / 1024); [|lra].
      change (bpow radix2 (-960)) with (bpow radix2 (-900 + -60)). rewrite bpow_plus.
      apply Rmult_le_compat_l; [apply bpow_ge_0|]. change (/ 1024) with (bpow radix2 (-10)). apply bpow_le. lia. }
    assert (T0 : 0 < tiny64) by apply bpow_gt_0.
    assert (P1 : 0 <= W * s) by (apply Rmult_le_pos; lra).
    assert (P2 : W * ((1 - u53) * (d + push)) <= W * s) by (apply Rmult_le_compat_l; lra).
    assert (P3 : W * s <= 1 * 6) by (apply Rmult_le_compat; lra).
    pose proof (rnd_any (W * s)) as E. fold m in E. rewrite (Rabs_pos_eq (W * s)) in E by lra.
    apply Rabs_le_inv in E.
    replace (W * ((1 - u53) * (d + push))) with ((1 - u53) * (W * d + W * push)) in P2 by ring.
    unfold push in P2. rewrite u53_val in *. set (a := W * d) in *. set (b := W * s) in *.
    set (v := rnd D) in *. set (t := tiny64) in *. clearbody a b v m t. split; lra.
  Qed.
End Up.

(** ** The same in binary64 *)
Section Doubles.
  Context {L : Libm}.
  Notation A := (F64 L).
  Notation far := (powerRZ 2 400).
  Notation further := (bpow radix2 500).

  Lemma nudge64 : is64 (nudge (A := A)) push.
  Proof.
    assert (E : nudge (A := A) = S754_finite false 5629499534213120 (-101)) by reflexivity.
    rewrite E. replace push with (value (S754_finite false 5629499534213120 (-101))).
    - apply double_is64; [reflexivity|exact Logic.I].
    - cbn [value]. rewrite pow_bpow. unfold push.
      change (bpow radix2 (-101)) with (bpow radix2 (-48 + -53)). rewrite bpow_plus.
      change (bpow radix2 (-48)) with (/ 281474976710656). lra.
  Qed.

  Lemma ordinary_is64 most x : ordinary most x -> is64 x (value x) /\ Rabs (value x) <= most.
  Proof. intros (D & F & B). split; auto. now apply double_is64. Qed.
  Lemma far_further r : Rabs r <= far -> Rabs r <= further.
  Proof. rewrite pow_bpow. intros H. apply Rle_trans with (1 := H). apply bpow_le. lia. Qed.

  (** The first coordinate, as the code takes it. *)
  Lemma dot_x (x y z : spec_float) a b c : is64 x a -> is64 y b -> is64 z c -> Rabs a <= further ->
    is64 (pdot (A := A) (mkPoint (A := A) x y z) xhat) a.
  Proof.
    intros Ix Iy Iz Ba. cbn [pdot xhat px py pz]. pose proof (is64_format _ _ Ix) as Fa.
    pose proof (is64_int 1 ltac:(lia)) as I1. pose proof (is64_int 0 ltac:(lia)) as I0.
    assert (Sm : Rabs (rnd a) < big) by (apply (rnd_small a 500); [lia|exact Ba]).
    assert (Z : Rabs (rnd 0) < big).
    { apply (rnd_small 0 500); [lia|]. rewrite Rabs_R0. apply bpow_ge_0. }
    assert (M1 : is64 (SFmul prec64 emax64 x (f64_ofZ 1)) a).
    { rewrite <- (rnd_id a Fa). replace a with (a * 1) at 1 by ring. apply is64_mul; auto. now rewrite Rmult_1_r. }
    assert (M0 : forall v r, is64 v r -> is64 (SFmul prec64 emax64 v (f64_ofZ 0)) 0).
    { intros v r Iv. rewrite <- rnd_0. replace 0 with (r * 0) at 1 by ring. apply is64_mul; auto. now rewrite Rmult_0_r. }
    assert (P0 : forall v v' , is64 v a -> is64 v' 0 -> is64 (SFadd prec64 emax64 v v') a).
    { intros v v' Iv Iv'. rewrite <- (rnd_id a Fa). replace a with (a + 0) at 1 by ring. apply is64_add; auto.
      now rewrite Rplus_0_r. }
    apply P0; [|now apply (M0 z c)]. apply P0; [exact M1|now apply (M0 y b)].
  Qed.

  (** A coordinate after a flight. *)
  Lemma moved x w t a b s : is64 x a -> Rabs a <= bpow radix2 400 -> is64 w b -> Rabs b <= 1 ->
    is64 t s -> 0 <= s <= 6 ->
    is64 (nadd A x (nmul A w t)) (rnd (a + rnd (b * s))) /\ Rabs (rnd (a + rnd (b * s))) <= further.
  Proof.
    intros Ix Ba Iw Bb It Bs.
    assert (B1 : Rabs (b * s) <= 8).
    { rewrite Rabs_mult, (Rabs_pos_eq s) by lra. pose proof (Rabs_pos b).
      apply Rle_trans with (1 * 6); [apply Rmult_le_compat; lra|lra]. }
    assert (B2 : Rabs (rnd (b * s)) <= 8).
    { apply Rabs_le. apply Rabs_le_inv in B1. split.
      - apply rnd_ge_format; [|lra]. apply generic_format_opp. now apply (int_format 8).
      - apply rnd_le_format; [|lra]. now apply (int_format 8). }
    assert (M : is64 (nmul A w t) (rnd (b * s))).
    { apply is64_mul; auto. apply (rnd_small _ 3); [lia|exact B1]. }
    assert (B3 : Rabs (a + rnd (b * s)) <= further).
    { apply Rle_trans with (1 := Rabs_triang _ _). apply Rle_trans with (bpow radix2 400 + bpow radix2 400).
      - apply Rplus_le_compat; auto. apply Rle_trans with (1 := B2). change 8 with (bpow radix2 3). apply bpow_le. lia.
      - replace (bpow radix2 400 + bpow radix2 400) with (bpow radix2 401); [apply bpow_le; lia|].
        change 401%Z with (1 + 400)%Z. rewrite bpow_plus. change (bpow radix2 1) with 2. lra. }
    split.
    - apply is64_add; auto. apply (rnd_small _ 500); [lia|exact B3].
    - apply Rabs_le. apply Rabs_le_inv in B3. assert (format64 further) by (apply bpow_format; lia). split.
      + apply rnd_ge_format; [now apply generic_format_opp|lra].
      + apply rnd_le_format; [auto|lra].
  Qed.

  (** The distance to the plane, and the side after the flight, from the rounded
      quantities. [D] and [W] are the distance and the component in the direction of flight. *)
  Lemma crossing (c : spec_float) (o w : point A) (sg : R) :
    ordinary far c -> ordinary_point far o -> ordinary_point 1 w ->
    (sg = 1 \/ sg = -1) ->
    let D := sg * (value c - value (px o)) in
    let W := sg * value (px w) in
    0 < D -> powerRZ 2 (-900) <= W -> 4 * D <= 19 * W ->
    let after := padd o (pscale w (nadd A (distance (PlaneX (A := A) c) o w) nudge)) in
    contains (PlaneX (A := A) c) o = Rlt_bool (value (px o)) (value c)
    /\ contains (PlaneX (A := A) c) after
       = Rlt_bool (rnd (value (px o) + rnd (value (px w) * length_to D W))) (value c).
  Proof.
    destruct o as [ox oy oz], w as [wx wy wz].
    intros Hc (Hox & Hoy & Hoz) (Hwx & Hwy & Hwz) Hsg D W HD HW Hnear after. cbn [px py pz] in *.
    apply ordinary_is64 in Hc as [Ic Bc], Hox as [Iox Box], Hoy as [Ioy Boy], Hoz as [Ioz Boz].
    apply ordinary_is64 in Hwx as [Iwx Bwx], Hwy as [Iwy Bwy], Hwz as [Iwz Bwz].
    rewrite pow_bpow in HW.
    pose proof (dot_x ox oy oz _ _ _ Iox Ioy Ioz (far_further _ Box)) as Idot.
    assert (Bw1 : Rabs (value wx) <= further).
    { apply Rle_trans with (1 := Bwx). change 1 with (bpow radix2 0). apply bpow_le. lia. }
    pose proof (dot_x wx wy wz _ _ _ Iwx Iwy Iwz Bw1) as Iwdot.
    set (x := value ox) in *. set (cv := value c) in *. set (wv := value wx) in *.
    pose proof (is64_format _ _ Ic) as Fc. pose proof (is64_format _ _ Iox) as Fx.
    assert (Ww : W <= 1) by (unfold W; apply Rabs_le_inv in Bwx; destruct Hsg as [-> | ->]; lra).
    assert (W0 : 0 < W) by (apply Rlt_le_trans with (2 := HW); apply bpow_gt_0).
    set (c' := if Rlt_bool 0 sg then cv else x). set (x' := if Rlt_bool 0 sg then x else cv).
    assert (ED : D = c' - x').
    { unfold D, c', x'. destruct Hsg as [-> | ->]; match goal with |- context [Rlt_bool ?a ?b] => destruct (Rlt_bool_spec a b) end; lra. }
    assert (Fc' : format64 c') by (unfold c'; destruct (Rlt_bool 0 sg); auto).
    assert (Fx' : format64 x') by (unfold x'; destruct (Rlt_bool 0 sg); auto).
    assert (HD' : 0 < c' - x') by lra. assert (Hn' : 4 * (c' - x') <= 19 * W) by lra.
    assert (HW' : bpow radix2 (-900) <= W <= 1) by (split; auto).
    assert (Rs : rnd (sg * (cv - x)) = sg * rnd (cv - x)).
    { destruct Hsg as [-> | ->]; [now rewrite !Rmult_1_l|].
      replace (-1 * (cv - x)) with (- (cv - x)) by ring. rewrite rnd_opp. ring. }
    assert (Eq : rnd (cv - x) / wv = rnd D / W).
    { unfold D, W. rewrite Rs. unfold W in W0. destruct Hsg as [-> | ->]; field; lra. }
    pose proof (quotient c' x' W Fc' Fx' HD' Hn') as [Q _].
    pose proof (d_bounds c' x' W Fc' Fx' HD' HW' Hn') as [B _].
    pose proof (s_bounds c' x' W Fc' Fx' HD' HW' Hn') as [Bs _].
    pose proof (to_plane c' x' Fc' Fx' HD') as TP.
    rewrite <- ED in *.
    (* the distance *)
    assert (Idist : is64 (distance (PlaneX (A := A) c) (mkPoint (A := A) ox oy oz) (mkPoint (A := A) wx wy wz))
                         (rnd (rnd D / W))).
    { assert (Id : is64 (ndiv A (nsub A c (pdot (mkPoint (A := A) ox oy oz) xhat))
                              (pdot (mkPoint (A := A) wx wy wz) xhat)) (rnd (rnd D / W))).
      { rewrite <- Eq. apply is64_div; auto.
        - apply is64_sub; auto.
          replace (rnd (cv - x)) with (sg * rnd D).
          + assert (Rabs (sg * rnd D) <= 8).
            { rewrite u53_val in TP. destruct Hsg as [-> | ->]; apply Rabs_le; lra. }
            apply Rle_lt_trans with (bpow radix2 3); [auto|]. apply bpow_lt. lia.
          + unfold D. rewrite Rs. destruct Hsg as [-> | ->]; ring.
        - unfold W in W0. intros E. rewrite E in W0. lra.
        - rewrite Eq. rewrite Rabs_pos_eq by lra. apply Rle_lt_trans with (bpow radix2 3); [|apply bpow_lt; lia].
          apply Rle_trans with 5; [lra|]. change (bpow radix2 3) with 8. lra. }
      assert (P : 0 < rnd (rnd D / W)).
      { apply Rlt_le_trans with (rnd D); [rewrite u53_val in TP; lra|].
        apply rnd_ge_format.
        - apply generic_format_round; [apply fexp_correct, prec_ok|apply valid_rnd_N].
        - apply Rmult_le_reg_r with W; [lra|]. unfold Rdiv. rewrite Rmult_assoc, Rinv_l, Rmult_1_r by lra.
          rewrite u53_val in TP. rewrite <- (Rmult_1_r (rnd D)) at 2. apply Rmult_le_compat_l; lra. }
      pose proof (is64_int 0 ltac:(lia)) as I0.
      match type of Id with is64 ?q _ =>
        change (is64 (if SFltb (f64_ofZ 0) q then q else ninf A) (rnd (rnd D / W))) end.
      rewrite (is64_ltb _ _ _ _ I0 Id).
      destruct (Rlt_bool_spec 0 (rnd (rnd D / W))); [exact Id|lra]. }
    assert (Is : is64 (nadd A (distance (PlaneX (A := A) c) (mkPoint (A := A) ox oy oz) (mkPoint (A := A) wx wy wz))
                            nudge) (length_to D W)).
    { apply is64_add; [exact Idist|exact nudge64|]. change (rnd (rnd (rnd D / W) + push)) with (length_to D W).
      rewrite Rabs_pos_eq by lra. apply Rle_lt_trans with (bpow radix2 3); [|apply bpow_lt; lia].
      change (bpow radix2 3) with 8. lra. }
    rewrite pow_bpow in *.
    destruct (moved ox wx _ _ _ _ Iox Box Iwx Bwx Is Bs) as [I1 B1].
    destruct (moved oy wy _ _ _ _ Ioy Boy Iwy Bwy Is Bs) as [I2 _].
    destruct (moved oz wz _ _ _ _ Ioz Boz Iwz Bwz Is Bs) as [I3 _].
    split.
    - cbn [contains]. change (nltb A) with SFltb. now apply is64_ltb.
    - pose proof (dot_x _ _ _ _ _ _ I1 I2 I3 B1) as I4.
      cbn [contains]. change (nltb A) with SFltb. exact (is64_ltb _ _ _ _ I4 Ic).
  Qed.
End Doubles.

Lemma C92_up_partial_proof : forall (L : Libm) (c : spec_float) (o w : point (F64 L)),
  ordinary (powerRZ 2 400) c -> ordinary_point (powerRZ 2 400) o -> ordinary_point 1 w ->
  let gap := value c - value (px o) in
  0 < gap -> powerRZ 2 (-900) <= value (px w) -> 4 * gap <= 19 * value (px w) ->
  let plane := PlaneX (A := F64 L) c in
  let after := padd o (pscale w (nadd (F64 L) (distance plane o w) nudge)) in
  contains plane o = true /\ contains plane after = false.
Proof.
  intros L c o w Hc Ho Hw gap Hg HW Hn plane after.
  destruct (crossing c o w 1 Hc Ho Hw (or_introl eq_refl)) as [E1 E2];
    try (rewrite !Rmult_1_l; assumption).
  fold plane after in E1, E2. rewrite E1, E2. rewrite !Rmult_1_l in *. fold gap.
  destruct Hc as (Dc & Fc & Bc). pose proof (double_is64 _ Dc Fc) as Ic.
  destruct Ho as ((Do & Fo & Bo) & _). pose proof (double_is64 _ Do Fo) as Io.
  destruct Hw as ((Dw & Fw & Bw) & _). apply Rabs_le_inv in Bw.
  rewrite pow_bpow in HW.
  pose proof (m_bounds _ _ _ (is64_format _ _ Ic) (is64_format _ _ Io) Hg (conj HW (proj2 Bw)) Hn) as B.
  fold gap in B.
  assert (0 < bpow radix2 (-900)) by apply bpow_gt_0.
  split.
  - apply Rlt_bool_true. unfold gap in Hg. lra.
  - apply Rlt_bool_false. apply rnd_ge_format; [exact (is64_format _ _ Ic)|].
    unfold gap in B. rewrite u53_val in B. unfold gap in *. lra.
Qed.

Lemma C92_down_partial_proof : forall (L : Libm) (c : spec_float) (o w : point (F64 L)),
  ordinary (powerRZ 2 400) c -> ordinary_point (powerRZ 2 400) o -> ordinary_point 1 w ->
  let gap := value (px o) - value c in
  0 < gap -> powerRZ 2 (-900) <= - value (px w) ->
  4 * gap + Rabs (value c) <= 19 * - value (px w) ->
  let plane := PlaneX (A := F64 L) c in
  let after := padd o (pscale w (nadd (F64 L) (distance plane o w) nudge)) in
  contains plane o = false /\ contains plane after = true.
Proof.
  intros L c o w Hc Ho Hw gap Hg HW Hn plane after.
  pose proof (Rabs_pos (value c)) as Pc.
  destruct (crossing c o w (-1) Hc Ho Hw (or_intror eq_refl)) as [E1 E2]; try (unfold gap in *; lra).
  fold plane after in E1, E2. rewrite E1, E2.
  destruct Hc as (Dc & Fc & Bc). pose proof (double_is64 _ Dc Fc) as Ic.
  destruct Ho as ((Do & Fo & Bo) & _). pose proof (double_is64 _ Do Fo) as Io.
  destruct Hw as ((Dw & Fw & Bw) & _). apply Rabs_le_inv in Bw.
  replace (-1 * (value c - value (px o))) with gap by (unfold gap; ring).
  replace (-1 * value (px w)) with (- value (px w)) by ring.
  set (W := - value (px w)) in *. rewrite pow_bpow in HW.
  replace (value (px w) * length_to gap W) with (- (W * length_to gap W)) by (unfold W; ring).
  rewrite rnd_opp.
  assert (HW' : bpow radix2 (-900) <= W <= 1) by (unfold W in *; lra).
  assert (Hn' : 4 * gap <= 19 * W) by lra.
  pose proof (m_bounds _ _ _ (is64_format _ _ Io) (is64_format _ _ Ic) Hg HW' Hn') as B.
  fold gap in B. set (m := rnd (W * length_to gap W)) in *.
  assert (0 < bpow radix2 (-900)) by apply bpow_gt_0.
  split; [apply Rlt_bool_false; unfold gap in Hg; lra|].
  apply Rlt_bool_true.
  assert (Fm : format64 m) by (apply generic_format_round; [apply fexp_correct, prec_ok|apply valid_rnd_N]).
  pose proof (rnd_sub_rel _ _ (is64_format _ _ Io) Fm) as E.
  change (value (px o) + - m) with (value (px o) - m). set (r := value (px o) - m) in *.
  rewrite u53_val in *.
  assert (R1 : r <= value c - / 9007199254740992 * (Rabs (value c) + W / 2)) by (unfold r, gap in *; lra).
  apply Rabs_le_inv in E.
  assert (R2 : Rabs (value c) <= 19 * W) by lra.
  destruct (Rcase_abs r) as [Hr|Hr].
  - rewrite (Rabs_left r) in E by exact Hr. destruct (Rcase_abs (value c)) as [Hv|Hv].
    + rewrite (Rabs_left _ Hv) in *. lra.
    + rewrite (Rabs_right _ Hv) in *. lra.
  - rewrite (Rabs_right r) in E by exact Hr. destruct (Rcase_abs (value c)) as [Hv|Hv].
    + rewrite (Rabs_left _ Hv) in *. lra.
    + rewrite (Rabs_right _ Hv) in *. lra.
Qed.

(** ** Meeting the plane again *)
Section Again.
  Context {L : Libm}.
  Notation A := (F64 L).
  Lemma plane_quotient (c : spec_float) (o w : point A) :
    ordinary (powerRZ 2 400) c -> ordinary_point (powerRZ 2 400) o -> ordinary_point 1 w ->
    powerRZ 2 (-500) <= Rabs (value (px w)) ->
    let r := rnd (rnd (value c - value (px o)) / value (px w)) in
    contains (PlaneX (A := A) c) o = Rlt_bool (value (px o)) (value c)
    /\ (0 < r -> is64 (distance (PlaneX (A := A) c) o w) r)
    /\ (r <= 0 -> distance (PlaneX (A := A) c) o w = ninf A).
  Proof.
    destruct o as [ox oy oz], w as [wx wy wz].
    intros Hc (Hox & Hoy & Hoz) (Hwx & Hwy & Hwz) HW r. cbn [px py pz] in *.
    apply ordinary_is64 in Hc as [Ic Bc], Hox as [Iox Box], Hoy as [Ioy Boy], Hoz as [Ioz Boz].
    apply ordinary_is64 in Hwx as [Iwx Bwx], Hwy as [Iwy Bwy], Hwz as [Iwz Bwz].
    pose proof (dot_x (L := L) ox oy oz _ _ _ Iox Ioy Ioz (far_further _ Box)) as Idot.
    assert (Bw1 : Rabs (value wx) <= bpow radix2 500).
    { apply Rle_trans with (1 := Bwx). change 1 with (bpow radix2 0). apply bpow_le. lia. }
    pose proof (dot_x (L := L) wx wy wz _ _ _ Iwx Iwy Iwz Bw1) as Iwdot.
    rewrite pow_bpow in *. split; [cbn [contains]; change (nltb A) with SFltb; now apply is64_ltb|].
    set (x := value ox) in *. set (cv := value c) in *. set (wv := value wx) in *.
    assert (B1 : Rabs (cv - x) <= bpow radix2 401).
    { apply Rle_trans with (bpow radix2 400 + bpow radix2 400).
      - unfold Rminus. apply Rle_trans with (1 := Rabs_triang _ _). rewrite Rabs_Ropp. lra.
      - change 401%Z with (1 + 400)%Z. rewrite bpow_plus. change (bpow radix2 1) with 2. lra. }
    assert (B2 : Rabs (rnd (cv - x)) <= bpow radix2 401).
    { apply Rabs_le. apply Rabs_le_inv in B1. assert (format64 (bpow radix2 401)) by (apply bpow_format; lia). split.
      - apply rnd_ge_format; [now apply generic_format_opp|lra].
      - apply rnd_le_format; [auto|lra]. }
    assert (P : 0 < Rabs wv) by (apply Rlt_le_trans with (2 := HW); apply bpow_gt_0).
    assert (N : wv <> 0) by (intros E; rewrite E, Rabs_R0 in P; lra).
    assert (B3 : Rabs (rnd (cv - x) / wv) <= bpow radix2 901).
    { unfold Rdiv. rewrite Rabs_mult, Rabs_inv. change 901%Z with (401 + 500)%Z. rewrite bpow_plus.
      apply Rmult_le_compat; [apply Rabs_pos|now apply Rlt_le, Rinv_0_lt_compat|exact B2|].
      change (bpow radix2 500) with (bpow radix2 (- - 500)). rewrite (bpow_opp radix2 (-500)).
      apply Rinv_le; [apply bpow_gt_0|exact HW]. }
    assert (Id : is64 (ndiv A (nsub A c (pdot (mkPoint (A := A) ox oy oz) xhat))
                              (pdot (mkPoint (A := A) wx wy wz) xhat)) r).
    { apply is64_div; auto.
      - apply is64_sub; auto. apply (rnd_small _ 401); [lia|exact B1].
      - apply (rnd_small _ 901); [lia|exact B3]. }
    pose proof (is64_int 0 ltac:(lia)) as I0.
    match type of Id with is64 ?q _ =>
      change (distance (PlaneX (A := A) c) (mkPoint (A := A) ox oy oz) (mkPoint (A := A) wx wy wz))
        with (if SFltb (f64_ofZ 0) q then q else ninf A) end.
    rewrite (is64_ltb _ _ _ _ I0 Id).
    destruct (Rlt_bool_spec 0 r); split; intros; try lra; auto.
  Qed.
End Again.

Lemma C92_lost_refuted_proof : forall (L : Libm) (c : spec_float) (o w : point (F64 L)),
  ordinary (powerRZ 2 400) c -> ordinary_point (powerRZ 2 400) o -> ordinary_point 1 w ->
  value (px o) = value c -> value (px w) <= - powerRZ 2 (-500) ->
  let plane := PlaneX (A := F64 L) c in
  contains plane o = false /\ distance plane o w = ninf (F64 L).
Proof.
  intros L c o w Hc Ho Hw Ex HW plane.
  assert (P : 0 < powerRZ 2 (-500)) by (rewrite pow_bpow; apply bpow_gt_0).
  destruct (plane_quotient c o w Hc Ho Hw) as (E1 & _ & E2); [rewrite Rabs_left; lra|].
  split.
  - unfold plane. rewrite E1, Ex. apply Rlt_bool_false. lra.
  - apply E2. rewrite Ex, Rminus_diag_eq by reflexivity. rewrite rnd_0. unfold Rdiv. rewrite Rmult_0_l, rnd_0. lra.
Qed.

Lemma C92_again_proof : forall (L : Libm) (c : spec_float) (o w : point (F64 L)),
  ordinary (powerRZ 2 400) c -> ordinary_point (powerRZ 2 400) o -> ordinary_point 1 w ->
  powerRZ 2 (-500) <= Rabs (value (px w)) ->
  (value (px o) < value c /\ 0 < value (px w) \/ value c < value (px o) /\ value (px w) < 0) ->
  let d := distance (PlaneX (A := F64 L) c) o w in
  is_double d /\ finite d /\ 0 < value d.
Proof.
  intros L c o w Hc Ho Hw HW Hs d.
  destruct (plane_quotient c o w Hc Ho Hw HW) as (_ & E & _).
  destruct Hc as (Dc & Fc & Bc). pose proof (is64_format _ _ (double_is64 _ Dc Fc)) as F1.
  destruct Ho as ((Do & Fo & Bo) & _). pose proof (is64_format _ _ (double_is64 _ Do Fo)) as F2.
  destruct Hw as ((Dw & Fw & Bw) & _). apply Rabs_le_inv in Bw.
  set (cv := value c) in *. set (x := value (px o)) in *. set (wv := value (px w)) in *.
  assert (FR : forall r, format64 (rnd r)).
  { intros r. apply generic_format_round; [apply fexp_correct, prec_ok|apply valid_rnd_N]. }
  assert (K : forall D W, 0 < rnd D -> 0 < W <= 1 -> 0 < rnd (rnd D / W)).
  { intros D W HD [W0 W1]. apply Rlt_le_trans with (rnd D); [exact HD|]. apply rnd_ge_format; [apply FR|].
    apply Rmult_le_reg_r with W; [lra|]. unfold Rdiv. rewrite Rmult_assoc, Rinv_l, Rmult_1_r by lra.
    rewrite <- (Rmult_1_r (rnd D)) at 2. apply Rmult_le_compat_l; lra. }
  assert (KS : forall a b, format64 a -> format64 b -> 0 < a - b -> 0 < rnd (a - b)).
  { intros a b Fa Fb Hab. pose proof (rnd_sub_rel a b Fa Fb) as Er. rewrite (Rabs_pos_eq (a - b)) in Er by lra.
    apply Rabs_le_inv in Er. rewrite u53_val in Er. lra. }
  assert (P : 0 < rnd (rnd (cv - x) / wv)).
  { destruct Hs as [[H1 H2]|[H1 H2]].
    - apply K; [apply KS; auto; lra|lra].
    - replace (rnd (cv - x) / wv) with (rnd (x - cv) / - wv).
      + apply K; [apply KS; auto; lra|lra].
      + replace (x - cv) with (- (cv - x)) by ring. rewrite rnd_opp. field. lra. }
  specialize (E P). fold d in E. destruct (is64_double _ _ E) as [H1 H2]. split; [auto|]. split; [auto|].
  now rewrite (is64_value _ _ E).
Qed.

(** ** Whole numbers as coordinates *)
Lemma ordinary_int z most : (Z.abs z <= 2 ^ 53)%Z -> Rabs (IZR z) <= most -> ordinary most (f64_ofZ z).
Proof.
  intros Hz Hm. pose proof (is64_int z Hz) as I. destruct (is64_double _ _ I) as [D F].
  split; [exact D|]. split; [exact F|]. now rewrite (is64_value _ _ I).
Qed.
Lemma int_value z : (Z.abs z <= 2 ^ 53)%Z -> value (f64_ofZ z) = IZR z.
Proof. intros Hz. apply is64_value. now apply is64_int. Qed.
Lemma far_int z : (Z.abs z <= 2 ^ 53)%Z -> ordinary (powerRZ 2 400) (f64_ofZ z).
Proof.
  intros Hz. apply ordinary_int; [exact Hz|]. rewrite pow_bpow.
  apply Rle_trans with (bpow radix2 53); [|apply bpow_le; lia].
  rewrite <- abs_IZR. change (bpow radix2 53) with (IZR (2 ^ 53)). now apply IZR_le.
Qed.
Lemma C92_example (L : Libm) :
  let at_x z := mkPoint (A := F64 L) (f64_ofZ z) (f64_ofZ 0) (f64_ofZ 0) in
  ordinary (powerRZ 2 400) (f64_ofZ 1) /\ ordinary_point (powerRZ 2 400) (at_x 3%Z)
  /\ ordinary_point (powerRZ 2 400) (at_x (-2)%Z)
  /\ ordinary_point 1 (at_x 1%Z) /\ ordinary_point 1 (at_x (-1)%Z)
  (* down from 3 to 1, and up from -2 to 1 *)
  /\ 4 * (value (px (at_x 3%Z)) - value (f64_ofZ 1)) + Rabs (value (f64_ofZ 1)) <= 19 * - value (px (at_x (-1)%Z))
  /\ 4 * (value (f64_ofZ 1) - value (px (at_x (-2)%Z))) <= 19 * value (px (at_x 1%Z))
  /\ powerRZ 2 (-500) <= value (px (at_x 1%Z)) /\ powerRZ 2 (-900) <= value (px (at_x 1%Z)).
Proof.
  cbv zeta. unfold ordinary_point. cbn [px py pz].
  assert (O1 : forall z, (Z.abs z <= 1)%Z -> ordinary 1 (f64_ofZ z)).
  { intros z Hz. apply ordinary_int; [lia|]. rewrite <- abs_IZR. now apply IZR_le. }
  repeat match goal with |- _ /\ _ => split end;
    try (apply far_int; lia); try (apply O1; lia); rewrite ?int_value by lia.
  - rewrite Rabs_pos_eq by lra. lra.
  - lra.
  - rewrite pow_bpow. change 1 with (bpow radix2 0). apply bpow_le. lia.
  - rewrite pow_bpow. change 1 with (bpow radix2 0). apply bpow_le. lia.
Qed.
