(** Table lookups in binary64. *)
From Coq Require Import Bool String List Reals ZArith NArith Lia Lra SpecFloat.
From Flocq Require Import Core IEEE754.BinarySingleNaN.
From Verif Require Import Model.Num Model.Outcome Model.Rng Model.Xml Model.Std Model.Point
  Model.Types Model.Tables Spec.BinsSpec Spec.TablesSpec Spec.DoubleSpec Spec.DoublePlaneSpec Spec.DoubleTableSpec
  Proofs.FloatLib Proofs.FloatReal Proofs.DoubleBins Proofs.DoubleRandom Proofs.DoubleStats
  Proofs.DoublePlanes.
Import ListNotations.
Local Open Scope R_scope.

(** ** Relative errors *)
Lemma factor x y s : 0 <= s -> Rabs (y - x) <= s * Rabs x -> exists a, Rabs a <= s /\ y = x * (1 + a).
Proof.
  intros Hs H. destruct (Req_dec x 0) as [->|N].
  - exists 0. rewrite Rabs_R0 in *. split; [lra|]. rewrite Rmult_0_r, Rminus_0_r in H.
    pose proof (Rabs_pos y). assert (Rabs y = 0) by lra. destruct (Req_dec y 0) as [->|Ny]; [ring|].
    apply Rabs_no_R0 in Ny. lra.
  - exists ((y - x) / x). split; [|field; auto]. unfold Rdiv. rewrite Rabs_mult, Rabs_inv.
    pose proof (Rabs_pos_lt x N). apply Rmult_le_reg_r with (Rabs x); [auto|].
    rewrite Rmult_assoc, Rinv_l by lra. lra.
Qed.
Lemma join a b s t : Rabs a <= s -> Rabs b <= t -> exists c, Rabs c <= s + t + s * t /\ (1 + a) * (1 + b) = 1 + c.
Proof.
  intros Ha Hb. exists (a + b + a * b). split; [|ring].
  apply Rle_trans with (1 := Rabs_triang _ _). apply Rplus_le_compat.
  - apply Rle_trans with (1 := Rabs_triang _ _). lra.
  - rewrite Rabs_mult. apply Rmult_le_compat; auto using Rabs_pos.
Qed.
Lemma inverse b : Rabs b <= u53 -> exists c, Rabs c <= 2 * u53 /\ / (1 + b) = 1 + c /\ 1 / 2 <= 1 + b <= 2.
Proof.
  rewrite u53_val. intros H. apply Rabs_le_inv in H. exists (- b / (1 + b)).
  assert (P : 1 / 2 <= 1 + b <= 2) by lra. split; [|split; [field; lra|auto]].
  apply Rabs_le. split.
  - apply Rmult_le_reg_r with (1 + b); [lra|]. unfold Rdiv. rewrite Rmult_assoc, Rinv_l by lra. nra.
  - apply Rmult_le_reg_r with (1 + b); [lra|]. unfold Rdiv. rewrite Rmult_assoc, Rinv_l by lra. nra.
Qed.

Definition most400 : R := bpow radix2 400.
Lemma most400_pos : 1 <= most400.
Proof. change 1 with (bpow radix2 0). apply bpow_le. lia. Qed.
Lemma fits_below r e : (e < 1024)%Z -> (-1074 <= e)%Z -> Rabs r <= bpow radix2 e -> Rabs (rnd r) < big.
Proof. intros H1 H2 H. apply (rnd_small r e); [lia|auto]. Qed.

Section Between.
  Context {L : Libm}.
  Notation A := (F64 L).
  Variables (k0f v0f k1f v1f kf : spec_float) (k0 v0 k1 v1 k M : R).
  Hypothesis (K0 : is64 k0f k0) (V0 : is64 v0f v0) (K1 : is64 k1f k1) (V1 : is64 v1f v1) (K : is64 kf k).
  Hypothesis (Bk0 : Rabs k0 <= most400) (Bk1 : Rabs k1 <= most400).
  Hypothesis (Bv0 : Rabs v0 <= M) (Bv1 : Rabs v1 <= M) (BM : M <= most400).
  Hypothesis (G : bpow radix2 (-400) <= k1 - k0) (IN : k0 <= k < k1).

  Let found := (nadd A v0f (nmul A (ndiv A (nsub A v1f v0f) (nsub A k1f k0f)) (nsub A kf k0f))).
  Let g := k1 - k0.
  Let dv := v1 - v0.
  Let D := rnd dv.
  Let W := rnd g.
  Let Q := rnd (D / W).
  Let T := rnd (k - k0).
  Let P := rnd (Q * T).

  Lemma c94_g : 0 < g /\ g <= bpow radix2 401.
  Proof.
    pose proof (bpow_gt_0 radix2 (-400)). apply Rabs_le_inv in Bk0, Bk1. unfold g, most400 in *. split; [lra|].
    change 401%Z with (1 + 400)%Z. rewrite bpow_plus. change (bpow radix2 1) with 2. lra.
  Qed.
  Lemma c94_dv : Rabs dv <= 2 * M.
  Proof. unfold dv. apply Rle_trans with (1 := Rabs_triang _ _). rewrite Rabs_Ropp. lra. Qed.
  Lemma c94_M : 0 <= M. Proof. pose proof (Rabs_pos v0). lra. Qed.

  Lemma c94_D : exists a, Rabs a <= u53 /\ D = dv * (1 + a).
  Proof. apply factor; [apply bpow_ge_0|]. apply rnd_sub_rel; [apply (is64_format _ _ V1)|apply (is64_format _ _ V0)]. Qed.
  Lemma c94_W : exists b, Rabs b <= u53 /\ W = g * (1 + b).
  Proof. apply factor; [apply bpow_ge_0|]. apply rnd_sub_rel; [apply (is64_format _ _ K1)|apply (is64_format _ _ K0)]. Qed.
  Lemma c94_T : exists c, Rabs c <= u53 /\ T = (k - k0) * (1 + c).
  Proof. apply factor; [apply bpow_ge_0|]. apply rnd_sub_rel; [apply (is64_format _ _ K)|apply (is64_format _ _ K0)]. Qed.

  (** an error that is relative up to a tiny number *)
  Lemma c94_any r : exists e, Rabs e <= u53 /\ Rabs (rnd r - r * (1 + e)) <= tiny64.
  Proof.
    pose proof (rnd_any r) as H. set (x := rnd r - r) in *.
    assert (U : 0 <= u53) by apply bpow_ge_0.
    destruct (Rle_dec (Rabs x) (u53 * Rabs r)) as [Y|N].
    - destruct (factor r (rnd r) u53 U Y) as (e & He & ->). exists e. split; auto.
      rewrite Rminus_diag_eq by reflexivity. rewrite Rabs_R0. apply bpow_ge_0.
    - destruct (Rle_dec 0 x).
      + exists (if Rle_dec 0 r then u53 else - u53). split; [destruct (Rle_dec 0 r); rewrite ?Rabs_Ropp, Rabs_pos_eq; lra|].
        rewrite (Rabs_pos_eq x) in * by auto. unfold x in *.
        apply Rabs_le. destruct (Rle_dec 0 r).
        * rewrite (Rabs_pos_eq r) in * by auto. pose proof (bpow_ge_0 radix2 (-1021)). lra.
        * rewrite (Rabs_left r) in * by lra. pose proof (bpow_ge_0 radix2 (-1021)). lra.
      + exists (if Rle_dec 0 r then - u53 else u53). split; [destruct (Rle_dec 0 r); rewrite ?Rabs_Ropp, Rabs_pos_eq; lra|].
        rewrite (Rabs_left x) in * by lra. unfold x in *.
        apply Rabs_le. destruct (Rle_dec 0 r).
        * rewrite (Rabs_pos_eq r) in * by auto. pose proof (bpow_ge_0 radix2 (-1021)). lra.
        * rewrite (Rabs_left r) in * by lra. pose proof (bpow_ge_0 radix2 (-1021)). lra.
  Qed.
  Let lam := (k - k0) / g.
  Lemma c94_lam : 0 <= lam <= 1.
  Proof.
    destruct c94_g as [G0 _]. unfold lam, Rdiv. split.
    - apply Rmult_le_pos; [lra|]. left. now apply Rinv_0_lt_compat.
    - apply Rmult_le_reg_r with g; [auto|]. rewrite Rmult_assoc, Rinv_l by lra. unfold g. lra.
  Qed.
  Lemma c94_chord : chord k0 v0 k1 v1 k = v0 + dv * lam. Proof. reflexivity. Qed.
  Lemma c94_combine : Rabs (v0 + dv * lam) <= M.
  Proof.
    pose proof c94_lam. unfold dv. replace (v0 + (v1 - v0) * lam) with ((1 - lam) * v0 + lam * v1) by ring.
    apply Rle_trans with (1 := Rabs_triang _ _). rewrite !Rabs_mult, (Rabs_pos_eq lam), (Rabs_pos_eq (1 - lam)) by lra.
    nra.
  Qed.

  Lemma c94_parts : exists z y,
    Rabs z <= 6 * u53 /\ Rabs y <= bpow radix2 (-617) /\ Q * T = dv * lam * (1 + z) + y.
  Proof.
    destruct c94_D as (a & Ha & ED). destruct c94_W as (b & Hb & EW). destruct c94_T as (c & Hc & ET).
    destruct (c94_any (D / W)) as (e & He & EQ). fold Q in EQ.
    destruct (inverse b Hb) as (b' & Hb' & Eb & Pb). destruct c94_g as [G0 G1].
    destruct (join a b' _ _ Ha Hb') as (z1 & Hz1 & E1).
    destruct (join z1 e _ _ Hz1 He) as (z2 & Hz2 & E2).
    destruct (join z2 c _ _ Hz2 Hc) as (z3 & Hz3 & E3).
    exists z3, ((Q - D / W * (1 + e)) * T). split; [|split].
    - apply Rle_trans with (1 := Hz3). rewrite u53_val. lra.
    - rewrite Rabs_mult. apply Rle_trans with (bpow radix2 (-1021) * bpow radix2 403).
      + apply Rmult_le_compat; auto using Rabs_pos. rewrite ET, Rabs_mult.
        rewrite (Rabs_pos_eq (k - k0)) by lra.
        assert (Rabs (1 + c) <= 2). { apply Rabs_le_inv in Hc. rewrite u53_val in Hc. apply Rabs_le. lra. }
        change 403%Z with (401 + 2)%Z. rewrite bpow_plus. change (bpow radix2 2) with 4.
        apply Rle_trans with (bpow radix2 401 * 2); [|pose proof (bpow_ge_0 radix2 401); lra].
        apply Rmult_le_compat; auto using Rabs_pos; unfold g in *; lra.
      + rewrite <- bpow_plus. apply bpow_le. lia.
    - replace (dv * lam * (1 + z3)) with (D / W * (1 + e) * T); [ring|].
      rewrite <- E3, <- E2, <- E1, <- Eb, ED, EW, ET. unfold lam. field. split; lra.
  Qed.
  Lemma c94_extra : 0 <= bpow radix2 (-617) /\ bpow radix2 (-617) <= 1 / 8.
  Proof. split; [apply bpow_ge_0|]. change (1 / 8) with (1 * bpow radix2 (-3)). rewrite Rmult_1_l. apply bpow_le. lia. Qed.

  Lemma c94_P : Rabs (P - dv * lam) <= 29 / 2 * u53 * M + 2 * bpow radix2 (-617) /\ Rabs (Q * T) <= 4 * most400.
  Proof.
    destruct c94_parts as (z & y & Hz & Hy & E). pose proof c94_dv as HD. pose proof c94_M as M0. pose proof c94_lam as HL.
    pose proof c94_extra as [X0 X1]. set (x := bpow radix2 (-617)) in *. pose proof most400_pos as MP.
    assert (HX : Rabs (dv * lam) <= 2 * M).
    { rewrite Rabs_mult, (Rabs_pos_eq lam) by lra. pose proof (Rabs_pos dv). nra. }
    assert (HP : Rabs (Q * T - dv * lam) <= 12 * u53 * M + x).
    { rewrite E. replace (dv * lam * (1 + z) + y - dv * lam) with (dv * lam * z + y) by ring.
      apply Rle_trans with (1 := Rabs_triang _ _). apply Rplus_le_compat; [|auto].
      rewrite Rabs_mult. apply Rle_trans with (2 * M * (6 * u53)); [|lra]. apply Rmult_le_compat; auto using Rabs_pos. }
    assert (HQ : Rabs (Q * T) <= 2 * M + 12 * u53 * M + x).
    { replace (Q * T) with (dv * lam + (Q * T - dv * lam)) by ring. apply Rle_trans with (1 := Rabs_triang _ _). lra. }
    pose proof (rnd_any (Q * T)) as R1. fold P in R1.
    assert (TX : bpow radix2 (-1021) <= x / 8).
    { unfold x. replace (bpow radix2 (-617) / 8) with (bpow radix2 (-620)).
      - apply bpow_le. lia.
      - change (-620)%Z with (-617 + -3)%Z. rewrite bpow_plus. reflexivity. }
    rewrite u53_val in *. split.
    - replace (P - dv * lam) with ((P - Q * T) + (Q * T - dv * lam)) by ring.
      apply Rle_trans with (1 := Rabs_triang _ _). lra.
    - lra.
  Qed.

  Lemma c94_between : exists r, is64 found r
    /\ Rabs (r - chord k0 v0 k1 v1 k) <= 16 * u53 * M + bpow radix2 (-600)
    /\ (k = k0 -> r = v0).
  Proof.
    pose proof c94_dv as HD. pose proof c94_M as M0. destruct c94_g as [G0 G1]. destruct c94_P as [HP HQT].
    pose proof c94_combine as HC. pose proof most400_pos as MP. pose proof c94_extra as [X0 X1].
    assert (B402 : 4 * most400 = bpow radix2 402).
    { change 402%Z with (2 + 400)%Z. rewrite bpow_plus. reflexivity. }
    assert (ID : is64 (nsub A v1f v0f) D).
    { apply is64_sub; auto. apply (fits_below _ 402); [lia|lia|]. unfold dv in HD. lra. }
    assert (IW : is64 (nsub A k1f k0f) W).
    { apply is64_sub; auto. apply (fits_below _ 402); [lia|lia|]. fold g. rewrite Rabs_pos_eq by lra.
      apply Rle_trans with (1 := G1). apply bpow_le. lia. }
    assert (IT : is64 (nsub A kf k0f) T).
    { apply is64_sub; auto. apply (fits_below _ 402); [lia|lia|]. rewrite Rabs_pos_eq by lra.
      apply Rle_trans with g; [unfold g; lra|]. apply Rle_trans with (1 := G1). apply bpow_le. lia. }
    destruct c94_D as (a & Ha & ED). destruct c94_W as (b & Hb & EW). destruct (inverse b Hb) as (_ & _ & _ & Pb).
    assert (WP : bpow radix2 (-401) <= W).
    { rewrite EW. change (-401)%Z with (-400 + -1)%Z. rewrite bpow_plus. change (bpow radix2 (-1)) with (/ 2).
      pose proof (bpow_ge_0 radix2 (-400)). apply Rmult_le_compat; unfold g; lra. }
    assert (W0 : 0 < W) by (pose proof (bpow_gt_0 radix2 (-401)); lra).
    assert (IQ : is64 (ndiv A (nsub A v1f v0f) (nsub A k1f k0f)) Q).
    { apply (is64_div _ _ _ _ ID IW); [lra|]. apply (fits_below _ 804); [lia|lia|].
      unfold Rdiv. rewrite Rabs_mult, Rabs_inv, (Rabs_pos_eq W) by lra.
      apply Rle_trans with (bpow radix2 403 * bpow radix2 401).
      - apply Rmult_le_compat; auto using Rabs_pos.
        + left. now apply Rinv_0_lt_compat.
        + rewrite ED, Rabs_mult. assert (Rabs (1 + a) <= 2).
          { apply Rabs_le_inv in Ha. rewrite u53_val in Ha. apply Rabs_le. lra. }
          change 403%Z with (402 + 1)%Z. rewrite bpow_plus. change (bpow radix2 1) with 2.
          apply Rmult_le_compat; auto using Rabs_pos. lra.
        + replace (bpow radix2 401) with (/ bpow radix2 (-401)) by (rewrite <- bpow_opp; reflexivity).
          apply Rinv_le_contravar; [apply bpow_gt_0|auto].
      - rewrite <- bpow_plus. apply bpow_le. lia. }
    assert (IP : is64 (nmul A (ndiv A (nsub A v1f v0f) (nsub A k1f k0f)) (nsub A kf k0f)) P).
    { apply is64_mul; auto. apply (fits_below _ 402); [lia|lia|]. lra. }
    assert (HV : Rabs (v0 + P) <= 2 * M + 1).
    { replace (v0 + P) with ((v0 + dv * lam) + (P - dv * lam)) by ring. apply Rle_trans with (1 := Rabs_triang _ _).
      rewrite u53_val in HP. lra. }
    exists (rnd (v0 + P)). split; [|split].
    - apply is64_add; auto. apply (fits_below _ 402); [lia|lia|]. lra.
    - pose proof (rnd_add_err v0 P (is64_format _ _ V0) (is64_format _ _ IP)) as E.
      rewrite c94_chord.
      assert (HV' : Rabs (v0 + P) <= M + 29 / 2 * u53 * M + 2 * bpow radix2 (-617)).
      { replace (v0 + P) with ((v0 + dv * lam) + (P - dv * lam)) by ring. apply Rle_trans with (1 := Rabs_triang _ _). lra. }
      replace (rnd (v0 + P) - (v0 + dv * lam)) with ((rnd (v0 + P) - (v0 + P)) + (P - dv * lam)) by ring.
      apply Rle_trans with (1 := Rabs_triang _ _).
      assert (X6 : 8 * bpow radix2 (-617) <= bpow radix2 (-600)).
      { change 8 with (bpow radix2 3). rewrite <- bpow_plus. apply bpow_le. lia. }
      assert (E' : Rabs (rnd (v0 + P) - (v0 + P)) <= u53 * (M + 29 / 2 * u53 * M + 2 * bpow radix2 (-617))).
      { apply Rle_trans with (1 := E). apply Rmult_le_compat_l; [apply bpow_ge_0|auto]. }
      clear - HP E' X6 X0 M0.
      set (x := bpow radix2 (-617)) in *. set (y := bpow radix2 (-600)) in *.
      apply Rle_trans with (u53 * (M + 29 / 2 * u53 * M + 2 * x) + (29 / 2 * u53 * M + 2 * x)); [lra|].
      rewrite u53_val. lra.
    - intros ->. unfold P, T. replace (k0 - k0) with 0 by ring. rewrite rnd_0, Rmult_0_r, rnd_0, Rplus_0_r.
      apply rnd_id. apply (is64_format _ _ V0).
  Qed.
End Between.

(** ** The search *)
Definition key_ok (e : spec_float * spec_float) : Prop := is64 (fst e) (value (fst e)).
Lemma increasing_head (a : R) (l : list R) : increasing (a :: l) -> forall b, In b l -> a < b.
Proof.
  revert a. induction l as [|c l IH]; intros a H b; [intros []|]. destruct H as [H1 H2].
  intros [<-|Hb]; [auto|]. apply Rlt_trans with c; auto.
Qed.
Lemma upper_found {L : Libm} (k : spec_float) (l : list (spec_float * spec_float)) (prev : option (spec_float * spec_float)) :
  is64 k (value k) -> (forall e, In e l -> key_ok e) ->
  exists pre post, l = (pre ++ post)%list
    /\ (forall e, In e pre -> value (fst e) <= value k)
    /\ (match post with [] => True | e :: _ => value k < value (fst e) end)
    /\ map_upper (A := F64 L) prev k l
       = (match rev pre with [] => prev | e :: _ => Some e end, hd_error post).
Proof.
  intros Ik. revert prev. induction l as [|[k' v'] l IH]; intros prev Hl.
  - exists [], []. repeat split; auto. intros e [].
  - cbn [map_upper]. change (nltb (F64 L)) with SFltb.
    pose proof (Hl (k', v') (or_introl eq_refl)) as Ik'. unfold key_ok in Ik'. cbn [fst] in Ik'.
    rewrite (is64_ltb _ _ _ _ Ik Ik').
    case Rlt_bool_spec; intros Hk.
    + exists [], ((k', v') :: l). repeat split; auto. intros e [].
    + destruct (IH (Some (k', v'))) as (pre & post & E & H1 & H2 & H3); [intros e He; apply Hl; now right|].
      exists ((k', v') :: pre), post. split; [now rewrite E|]. split; [|split; [auto|]].
      * intros e [<-|He]; [exact Hk|now apply H1].
      * etransitivity; [exact H3|]. f_equal. cbn [rev]. destruct (rev pre); reflexivity.
Qed.
Lemma numbers_app l l' : numbers (l ++ l') = (numbers l ++ numbers l')%list. Proof. apply map_app. Qed.
Lemma increasing_app (l l' : list R) : increasing (l ++ l') -> increasing l'.
Proof. induction l as [|a l IH]; [auto|]. intros [_ H]. now apply IH. Qed.
Lemma rev_cons_last {B} (l : list B) e t : rev l = e :: t -> l = (rev t ++ [e])%list.
Proof. intros H. rewrite <- (rev_involutive l), H. reflexivity. Qed.
Lemma increasing_before (l l' : list R) : increasing (l ++ l') -> forall a b, In a l -> In b l' -> a < b.
Proof.
  induction l as [|c l IH]; intros H a b Ha Hb; [destruct Ha|]. destruct Ha as [<-|Ha].
  - apply (increasing_head _ _ H). apply in_or_app. now right.
  - apply IH; auto. now destruct H.
Qed.

(** Where a key is, its neighbours are determined. *)
Lemma neighbours_unique (pre post : list (R * R)) k0 v0 k1 v1 k0' v0' k1' v1' k :
  let l := (pre ++ (k0, v0) :: (k1, v1) :: post)%list in
  increasing (map fst l) -> neighbours l k0' v0' k1' v1' -> k0 <= k < k1 -> k0' <= k <= k1' ->
  (k0' = k0 /\ v0' = v0 /\ k1' = k1 /\ v1' = v1) \/ (k = k0 /\ k1' = k0 /\ v1' = v0 /\ k0' < k0).
Proof.
  intros l. unfold l. clear l. revert pre. induction pre as [|e pre IH]; intros H (pre' & post' & E) Hk Hk'.
  - cbn [app] in *. destruct pre' as [|a [|b pre']]; cbn [app] in E.
    + inversion E; subst. left; auto.
    + inversion E; subst. lra.
    + inversion E; subst. cbn [map fst] in H. destruct H as [_ H]. pose proof (increasing_head _ _ H k0') as O.
      rewrite map_app in O. specialize (O ltac:(apply in_or_app; right; now left)). cbn in O. lra.
  - destruct pre' as [|a pre']; cbn [app] in E.
    + inversion E; subst e. destruct pre as [|b pre]; cbn [app] in *.
      * inversion H2; subst. right. destruct H as [H _]. cbn in H. repeat split; lra.
      * inversion H2; subst b. assert (k1' < k0); [|lra]. destruct H as [_ H]. cbn [map fst] in H.
        apply (increasing_head _ _ H). rewrite map_app. apply in_or_app. right. now left.
    + inversion E; subst. apply IH; auto; [now destruct H|]. now exists pre', post'.
Qed.

Lemma keys_in e l : In e l -> In (value (fst e)) (map fst (numbers l)).
Proof. intros H. unfold numbers. rewrite map_map. now apply (in_map (fun e => value (fst e))). Qed.
Lemma cm1_result (A : Arith) (l : cmap A 1) (k : num A) p : map_upper None k l = p ->
  cm1_at l k
  = match p with
    | (None, None) => UB
    | (Some (_, v), None) => Ok v
    | (None, Some (_, v)) => Ok v
    | (Some (k_lo, m_lo), Some (k_hi, m_hi)) =>
        Ok (nadd A m_lo (nmul A (ndiv A (nsub A m_hi m_lo) (nsub A k_hi k_lo)) (nsub A k k_lo)))
    end.
Proof. intros <-. unfold cm1_at. cbn [cm_at]. destruct (map_upper None k l) as [[[a b]|] [[c d]|]]; reflexivity. Qed.
Lemma C94_lookup_proof : forall (L : Libm) (l : list (spec_float * spec_float)) (first final : spec_float * spec_float),
  sensible_table l -> hd_error l = Some first -> hd_error (rev l) = Some final ->
  forall k, is_double k -> finite k ->
  exists r, cm1_at (A := F64 L) l k = Ok r /\ is_double r /\ finite r
    (* outside the table, the nearest entry *)
    /\ (value k < value (fst first) -> r = snd first)
    /\ (value (fst final) <= value k -> r = snd final)
    (* at a key, its value *)
    /\ (forall v, In (value k, v) (numbers l) -> value r = v)
    (* between two keys, the straight line up to rounding *)
    /\ (forall k0 v0 k1 v1, neighbours (numbers l) k0 v0 k1 v1 -> k0 <= value k <= k1 ->
          Rabs (value r - chord k0 v0 k1 v1 (value k))
          <= powerRZ 2 (-49) * Rmax (Rabs v0) (Rabs v1) + powerRZ 2 (-600)).
Proof.
  intros L l first final (Hne & Hord & Hinc & Hgap) Hfirst Hfinal k Dk Fk.
  pose proof (double_is64 _ Dk Fk) as Ik. rewrite !pow_bpow in *.
  assert (U49 : bpow radix2 (-49) = 16 * u53).
  { change 16 with (bpow radix2 4). rewrite <- bpow_plus. reflexivity. }
  assert (Hent : forall e, In e l -> is64 (fst e) (value (fst e)) /\ Rabs (value (fst e)) <= most400
                           /\ is64 (snd e) (value (snd e)) /\ Rabs (value (snd e)) <= most400).
  { intros [a b] He. destruct (Hord a b He) as [(D1 & F1 & B1) (D2 & F2 & B2)]. cbn [fst snd].
    split; [now apply double_is64|]. split; [exact B1|]. split; [now apply double_is64|exact B2]. }
  destruct (upper_found (L := L) k l None Ik (fun e He => proj1 (Hent e He))) as (pre & post & El & Hpre & Hpost & Hup).
  pose proof (cm1_result (F64 L) l k _ Hup) as Hcm. clear Hup.
  destruct (rev pre) as [|[k0 v0] pt] eqn:Er.
  - (* before the first key *)
    assert (pre = []) by (apply (f_equal (@rev _)) in Er; now rewrite rev_involutive in Er). subst pre. cbn [app] in El. subst post.
    destruct l as [|[k1 v1] l]; [congruence|]. injection Hfirst as <-. cbn [hd_error] in Hcm.
    destruct (Hent (k1, v1) (or_introl eq_refl)) as (I1 & B1 & I2 & B2). cbn [fst snd] in *.
    destruct (is64_double _ _ I2) as [D2 F2]. exists v1.
    split; [exact Hcm|]. split; [auto|]. split; [auto|]. split; [auto|].
    assert (Hall : forall e, In e ((k1, v1) :: l) -> value k < value (fst e)).
    { intros e [<-|He]; [auto|]. apply Rlt_trans with (1 := Hpost). exact (increasing_head _ _ Hinc _ (keys_in e l He)). }
    split; [|split].
    + intros H. exfalso. destruct (rev ((k1, v1) :: l)) eqn:E; [discriminate|]. injection Hfinal as <-.
      specialize (Hall p). rewrite in_rev, E in Hall. specialize (Hall (or_introl eq_refl)). lra.
    + intros v Hv. exfalso. apply in_map_iff in Hv as (e & E & He). injection E as E1 E2. specialize (Hall e He). lra.
    + intros k0 v0 k2 v2 (p & q & E) Hk. exfalso.
      assert (He : In (k0, v0) (numbers ((k1, v1) :: l))) by (rewrite E; apply in_or_app; right; now left).
      apply in_map_iff in He as (e & E1 & He). injection E1 as E1 E2. specialize (Hall e He). lra.
  - apply rev_cons_last in Er.
    destruct post as [|[k1 v1] post]; cbn [hd_error] in Hcm.
    + (* after the last key *)
      rewrite app_nil_r in El. subst pre.
      assert (Hlast : final = (k0, v0)).
      { rewrite Er, rev_app_distr in Hfinal. cbn in Hfinal. congruence. }
      subst final. assert (Hin : In (k0, v0) l) by (rewrite Er; apply in_or_app; right; now left).
      destruct (Hent _ Hin) as (I1 & B1 & I2 & B2). cbn [fst snd] in *. destruct (is64_double _ _ I2) as [D2 F2].
      pose proof (Hpre _ Hin) as Hk0. cbn [fst] in Hk0.
      assert (En : numbers l = (numbers (rev pt) ++ [(value k0, value v0)])%list) by (rewrite Er at 1; apply numbers_app).
      rewrite En, map_app in Hinc.
      exists v0. split; [exact Hcm|]. split; [auto|]. split; [auto|]. split; [|split; [|split]].
      * intros H. exfalso. destruct l as [|e l]; [destruct Hin|]. injection Hfirst as <-.
        specialize (Hpre e (or_introl eq_refl)). lra.
      * auto.
      * intros v Hv. rewrite En in Hv. apply in_app_or in Hv as [Hv|[Hv|[]]]; [|congruence].
        exfalso. pose proof (increasing_before _ _ Hinc (value k) (value k0)) as O.
        specialize (O (in_map fst _ _ Hv) (or_introl eq_refl)). lra.
      * intros a b c d (p & q & E) Hk. rewrite En in E.
        assert (Hc : c = value k0 /\ d = value v0 /\ a < c).
        { destruct (rev q) as [|z q'] eqn:Eq.
          - assert (q = []) by (apply (f_equal (@rev _)) in Eq; now rewrite rev_involutive in Eq). subst q.
            change (p ++ (a, b) :: [(c, d)])%list with (p ++ ([(a, b)] ++ [(c, d)]))%list in E. rewrite app_assoc in E.
            apply app_inj_tail in E as [E1 E2]. injection E2 as E2 E3. subst c d. repeat split; auto.
            apply (increasing_before _ _ Hinc); [|now left]. rewrite E1, map_app. apply in_or_app. right. now left.
          - apply rev_cons_last in Eq. subst q. exfalso.
            rewrite app_comm_cons, app_comm_cons, app_assoc in E. apply app_inj_tail in E as [E1 E2].
            assert (O : c < value k0); [|lra]. apply (increasing_before _ _ Hinc); [|now left].
            rewrite E1, map_app. apply in_or_app. right. right. now left. }
        destruct Hc as (-> & -> & Ha).
        assert (Ec : value k = value k0) by lra. rewrite Ec.
        unfold chord. replace ((value k0 - a) / (value k0 - a)) with 1 by (field; lra).
        replace (value v0 - (b + (value v0 - b) * 1)) with 0 by ring. rewrite Rabs_R0.
        apply Rplus_le_le_0_compat; [apply Rmult_le_pos|]; try apply bpow_ge_0.
        apply Rle_trans with (Rabs b); [apply Rabs_pos|apply Rmax_l].
    + (* between *)
      rewrite Er in El. rewrite <- app_assoc in El. cbn [app] in El.
      assert (Hin0 : In (k0, v0) l) by (rewrite El; apply in_or_app; right; now left).
      assert (Hin1 : In (k1, v1) l) by (rewrite El; apply in_or_app; right; right; now left).
      destruct (Hent _ Hin0) as (K0 & Bk0 & V0 & Bv0). destruct (Hent _ Hin1) as (K1 & Bk1 & V1 & Bv1). cbn [fst snd] in *.
      assert (Hk0 : value k0 <= value k). { apply (Hpre (k0, v0)). rewrite Er. apply in_or_app. right. now left. }
      assert (En : numbers l = (numbers (rev pt) ++ (value k0, value v0) :: (value k1, value v1) :: numbers post)%list)
        by (rewrite El at 1; apply numbers_app).
      assert (Hg : bpow radix2 (-400) <= value k1 - value k0).
      { apply (Hgap _ (value v0) _ (value v1)). now exists (numbers (rev pt)), (numbers post). }
      set (M := Rmax (Rabs (value v0)) (Rabs (value v1))).
      destruct (c94_between (L := L) k0 v0 k1 v1 k _ _ _ _ _ M K0 V0 K1 V1 Ik Bk0 Bk1 (Rmax_l _ _) (Rmax_r _ _)
                  ltac:(now apply Rmax_lub) Hg ltac:(lra)) as (r & Ir & Hr & Hr0).
      eexists. split; [exact Hcm|]. destruct (is64_double _ _ Ir) as [D F]. split; [exact D|]. split; [exact F|].
      rewrite (is64_value _ _ Ir).
      split; [|split; [|split]].
      * intros H. exfalso. assert (value (fst first) <= value k0); [|lra].
        rewrite El in Hfirst. destruct (rev pt) as [|e t]; cbn in Hfirst; injection Hfirst as <-; [cbn; lra|].
        rewrite En in Hinc. cbn [numbers map app] in Hinc. cbn [map fst] in Hinc. left. apply (increasing_head _ _ Hinc).
        rewrite map_app. apply in_or_app. right. now left.
      * intros H. exfalso. assert (Hf : In final ((k1, v1) :: post)).
        { rewrite El, rev_app_distr in Hfinal. cbn [rev] in Hfinal. rewrite <- !app_assoc in Hfinal.
          destruct (rev post) as [|z zs] eqn:Ez; cbn in Hfinal; injection Hfinal as <-; [now left|].
          right. rewrite in_rev, Ez. now left. }
        assert (value k1 <= value (fst final)); [|lra]. destruct Hf as [<-|Hf]; [cbn; lra|].
        rewrite En, map_app in Hinc. apply increasing_app in Hinc. destruct Hinc as [_ Hinc]. left. exact (increasing_head _ _ Hinc _ (keys_in final post Hf)).
      * intros v Hv. rewrite En in Hv, Hinc. apply in_app_or in Hv as [Hv|[Hv|[Hv|Hv]]].
        -- rewrite map_app in Hinc. pose proof (increasing_before _ _ Hinc (value k) (value k0) (in_map fst _ _ Hv) (or_introl eq_refl)). lra.
        -- injection Hv as E1 E2. rewrite <- E2. now apply Hr0.
        -- injection Hv as E1 E2. lra.
        -- rewrite map_app in Hinc. apply increasing_app in Hinc. destruct Hinc as [_ Hinc].
           pose proof (increasing_head _ _ Hinc (value k) (in_map fst _ _ Hv)). cbn in H. lra.
      * intros a b c d Hn Hk. rewrite En in Hn, Hinc.
        destruct (neighbours_unique _ _ _ _ _ _ _ _ _ _ _ Hinc Hn (conj Hk0 Hpost) Hk) as [(-> & -> & -> & ->)|(E1 & -> & -> & Ha)].
        -- rewrite U49. exact Hr.
        -- rewrite (Hr0 E1), E1. unfold chord. replace ((value k0 - a) / (value k0 - a)) with 1 by (field; lra).
           replace (value v0 - (b + (value v0 - b) * 1)) with 0 by ring. rewrite Rabs_R0.
           apply Rplus_le_le_0_compat; [apply Rmult_le_pos|]; try apply bpow_ge_0.
           apply Rle_trans with (Rabs b); [apply Rabs_pos|apply Rmax_l].
Qed.

(** ** What can go wrong *)
Lemma less x y : is_double x -> finite x -> is_double y -> finite y -> SFltb x y = true -> value x < value y.
Proof.
  intros D F D' F' H. rewrite (is64_ltb _ _ _ _ (double_is64 _ D F) (double_is64 _ D' F')) in H.
  revert H. case Rlt_bool_spec; [auto|discriminate].
Qed.

Lemma two_points (L : Libm) k0 v0 k1 v1 k r : SFltb k k0 = false -> SFltb k k1 = true ->
  SFadd prec64 emax64 v0 (SFmul prec64 emax64 (SFdiv prec64 emax64 (SFsub prec64 emax64 v1 v0)
    (SFsub prec64 emax64 k1 k0)) (SFsub prec64 emax64 k k0)) = r ->
  cm1_at (A := F64 L) [(k0, v0); (k1, v1)] k = Ok r.
Proof.
  intros H0 H1 <-. apply (cm1_result (F64 L) [(k0, v0); (k1, v1)] k (Some (k0, v0), Some (k1, v1))).
  cbn [map_upper]. change (nltb (F64 L)) with SFltb. now rewrite H0, H1.
Qed.

Lemma three_points (L : Libm) k' v' k0 v0 k1 v1 k r :
  SFltb k k' = false -> SFltb k k0 = false -> SFltb k k1 = true ->
  SFadd prec64 emax64 v0 (SFmul prec64 emax64 (SFdiv prec64 emax64 (SFsub prec64 emax64 v1 v0)
    (SFsub prec64 emax64 k1 k0)) (SFsub prec64 emax64 k k0)) = r ->
  cm1_at (A := F64 L) [(k', v'); (k0, v0); (k1, v1)] k = Ok r.
Proof.
  intros H H0 H1 <-. apply (cm1_result (F64 L) [(k', v'); (k0, v0); (k1, v1)] k (Some (k0, v0), Some (k1, v1))).
  cbn [map_upper]. change (nltb (F64 L)) with SFltb. now rewrite H, H0, H1.
Qed.

(** 5.8 less one unit in the last place *)
Definition below_5_8 : spec_float := S754_finite false 6530219459687218 (-50).
Lemma C94_beyond_refuted_proof :
  let tenths z := SFdiv prec64 emax64 (f64_ofZ z) (f64_ofZ 10) in
  exists k r, is_double k /\ finite k /\ value (tenths 11%Z) < value k < value (tenths 58%Z)
    /\ is_double r /\ finite r /\ value (f64_ofZ 7) < value r
    /\ forall L : Libm,
       cm1_at (A := F64 L) [(tenths 11%Z, f64_ofZ 1); (tenths 58%Z, f64_ofZ 7)] k = Ok r.
Proof.
  intros tenths. exists below_5_8, (S754_finite false 7881299347898369 (-50)).
  split; [vm_compute; reflexivity|]. split; [exact I|].
  split; [split; apply less; try (vm_compute; reflexivity); exact I|].
  split; [vm_compute; reflexivity|]. split; [exact I|].
  split; [apply less; try (vm_compute; reflexivity); exact I|].
  intros L. apply two_points; vm_compute; reflexivity.
Qed.
Lemma ordinary_between x most : is_double x -> finite x -> - most <= value x <= most -> ordinary most x.
Proof. intros D F H. split; [auto|split; [auto|]]. apply Rabs_le. lra. Qed.
Lemma C94_negative_refuted_proof :
  let half z := SFdiv prec64 emax64 (f64_ofZ z) (f64_ofZ 2) in
  let l := [(SFdiv prec64 emax64 (f64_ofZ 1) (f64_ofZ 4), f64_ofZ 7);
            (half 7508503957693039%Z, f64_ofZ 0)] in
  sensible_table l
  /\ exists r, is_double r /\ finite r /\ value r < 0
    /\ forall L : Libm, cm1_at (A := F64 L) l (half 7508503957693038%Z) = Ok r.
Proof.
  intros half l. split.
  - unfold l, half. clear l half.
    set (a := SFdiv prec64 emax64 (f64_ofZ 1) (f64_ofZ 4)).
    set (b := SFdiv prec64 emax64 (f64_ofZ 7508503957693039) (f64_ofZ 2)).
    assert (Va : value a = / 4).
    { vm_compute in a. subst a. unfold value. rewrite pow_bpow.
      change (-54)%Z with (-52 + -2)%Z. rewrite bpow_plus. change (bpow radix2 (-2)) with (/ 4).
      change (bpow radix2 (-52)) with (/ 4503599627370496). field. }
    assert (Vb : value b = 7508503957693039 / 2).
    { vm_compute in b. subst b. unfold value. rewrite pow_bpow. change (bpow radix2 (-1)) with (/ 2). field. }
    assert (Da : is_double a) by (vm_compute; reflexivity). assert (Db : is_double b) by (vm_compute; reflexivity).
    assert (Fa : finite a) by (vm_compute; exact I). assert (Fb : finite b) by (vm_compute; exact I).
    assert (G : bpow radix2 (-400) <= 1) by (change 1 with (bpow radix2 0); apply bpow_le; lia).
    assert (Oa : forall most, 10000000000000000 <= most -> ordinary most a).
    { intros most Hm. apply (ordinary_between a most Da Fa). rewrite Va. lra. }
    assert (Ob : forall most, 10000000000000000 <= most -> ordinary most b).
    { intros most Hm. apply (ordinary_between b most Db Fb). rewrite Vb. lra. }
    assert (B : 10000000000000000 <= powerRZ 2 400).
    { rewrite pow_bpow. apply Rle_trans with (bpow radix2 60); [|apply bpow_le; lia].
      change (bpow radix2 60) with 1152921504606846976. lra. }
    assert (N : numbers [(a, f64_ofZ 7); (b, f64_ofZ 0)] = [(/ 4, 7); (7508503957693039 / 2, 0)]).
    { unfold numbers. cbn [map fst snd]. rewrite Va, Vb, !int_value by lia. reflexivity. }
    split; [discriminate|]. split; [|split].
    + intros k v [E|[E|[]]]; apply pair_equal_spec in E as [<- <-].
      * split; [exact (Oa _ B)|apply (far_int 7); lia].
      * split; [exact (Ob _ B)|apply (far_int 0); lia].
    + rewrite N. cbn. lra.
    + rewrite N, pow_bpow. intros k0 v0 k1 v1 (p & q & E).
      destruct p as [|? [|? [|? ?]]]; cbn in E; inversion E; subst; lra.
  - exists (S754_finite true 4503599627370496 (-102)).
    split; [vm_compute; reflexivity|]. split; [exact I|]. split.
    + unfold value. pose proof (powerRZ_lt 2 (-102) ltac:(lra)). lra.
    + intros L. apply two_points; vm_compute; reflexivity.
Qed.
Lemma C94_nan_refuted_proof :
  let least := S754_finite false 1 (-1074) in
  is_double least /\ finite least /\ value (f64_ofZ 0) < value least
  /\ forall L : Libm,
     cm1_at (A := F64 L) [(f64_ofZ 0, f64_ofZ 0); (least, f64_ofZ 4)] (f64_ofZ 0) = Ok S754_nan.
Proof.
  intros least. split; [vm_compute; reflexivity|]. split; [exact I|].
  split; [apply less; try (vm_compute; reflexivity); exact I|].
  intros L. apply two_points; vm_compute; reflexivity.
Qed.
Lemma C94_example : let l := [(f64_ofZ 1, f64_ofZ 10); (f64_ofZ 2, f64_ofZ 30); (f64_ofZ 4, f64_ofZ 20)] in
  sensible_table l /\ neighbours (numbers l) 2 30 4 20
  /\ forall L : Libm, cm1_at (A := F64 L) l (f64_ofZ 3) = Ok (f64_ofZ 25).
Proof.
  intros l. assert (N : numbers l = [(1, 10); (2, 30); (4, 20)]) by (unfold numbers, l; cbn [map fst snd]; rewrite !int_value by lia; reflexivity).
  assert (G : powerRZ 2 (-400) <= 1). { rewrite pow_bpow. change 1 with (bpow radix2 0). apply bpow_le. lia. }
  split; [|split].
  - split; [discriminate|]. split; [|split].
    + intros k v [E|[E|[E|[]]]]; apply pair_equal_spec in E as [<- <-]; split; apply far_int; lia.
    + rewrite N. cbn. lra.
    + rewrite N. intros k0 v0 k1 v1 (p & q & E).
      destruct p as [|? [|? [|? [|? ?]]]]; cbn in E; inversion E; subst; lra.
  - rewrite N. now exists [(1, 10)], [].
  - intros L. apply three_points; vm_compute; reflexivity.
Qed.
