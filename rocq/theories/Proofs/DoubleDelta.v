(** Accepting collisions of delta tracking in binary64: C96. *)
From Coq Require Import Bool String List ZArith NArith Reals Lra Lia SpecFloat.
From Flocq Require Import Core BinarySingleNaN Relative.
From Verif Require Import Model.Num Model.Outcome Model.Rng Model.Xml Model.Std Model.Point
  Model.Surface Model.Types Model.Field Model.Particle Model.Multigroup Model.Continuous Model.Material
  Model.World Model.Perturbation Model.Estimator Model.Transport
  Spec.SumSpec Spec.RngSpec Spec.MultigroupSpec Spec.TransportSpec
  Spec.DoubleSpec Spec.DoubleGroupSpec Spec.DoubleChoiceSpec Spec.DoubleDeltaSpec Proofs.RealLib Proofs.OutcomeLib
  Proofs.FloatLib Proofs.FloatReal Proofs.DoubleBins Proofs.DoubleRandom Proofs.DoubleStats
  Proofs.BinsProofs Proofs.MaterialProofs Proofs.MultigroupProofs Proofs.StepLib Proofs.CrossingProofs Proofs.ContinuousProofs Proofs.MultigroupReal
  Proofs.DoubleGroups Proofs.DoubleChoice Proofs.DoublePlanes.
Import ListNotations.
Local Open Scope R_scope.

Lemma over_nonneg a b : 0 <= a -> 0 < b -> 0 <= a / b.
Proof. intros Ha Hb. apply Rmult_le_pos; [exact Ha|]. left. now apply Rinv_0_lt_compat. Qed.
Lemma over_self a : a <> 0 -> a / a = 1.
Proof. intros H. now field. Qed.
Lemma le_nonneg : forall rs rs', Forall2 Rle rs rs' -> nonneg rs -> nonneg rs'.
Proof. induction 1 as [|r r' rs rs' H _ IH]; intros N; [constructor|]. inversion N; subst. constructor; [lra|exact (IH ltac:(assumption))]. Qed.

(** Two sums of doubles: the one with the larger entries is the larger. *)
Lemma sum_mono L : forall l rs, are64 l rs -> nonneg rs ->
  forall l' rs', are64 l' rs' -> Forall2 Rle rs rs' ->
  forall k acc a E acc' a' E', is64 acc a -> 0 <= E -> dn ^ k * E <= a <= up ^ k * E ->
  is64 acc' a' -> 0 <= E' -> dn ^ k * E' <= a' <= up ^ k * E' -> a <= a' ->
  E + Rsum rs <= huge -> E' + Rsum rs' <= huge -> (Z.of_nat (k + length l) <= 70000)%Z ->
  exists s s', is64 (fold_left (nadd (F64 L)) l acc) s /\ is64 (fold_left (nadd (F64 L)) l' acc') s' /\ s <= s'.
Proof.
  induction 1 as [|x r l rs Hx Hl IH]; intros Hn l' rs' H' Hle k acc a E acc' a' E' Ia HE B Ia' HE' B' Haa Hh Hh' Hk.
  - inversion Hle; subst. inversion H'; subst. exists a, a'. auto.
  - inversion Hle as [|r0 r' rs0 rs'' Hr Hrs]; subst. inversion H' as [|x' r0 l'' rs0 Hx' Hl']; subst. inversion Hn as [|r0 rs0 Hr0 Hn']; subst.
    cbn [Rsum length fold_left] in *. pose proof (Rsum_nonneg _ Hn') as Sn.
    assert (Hn'' : nonneg rs''). { exact (le_nonneg _ _ Hrs Hn'). }
    pose proof (Rsum_nonneg _ Hn'') as Sn'.
    destruct (add_one x r acc a k E Hx Ia) as (I1 & L1 & L2); auto; try lra; try lia.
    destruct (add_one x' r' acc' a' k E' Hx' Ia') as (I1' & L1' & L2'); auto; try lra; try lia.
    change (nadd (F64 L) acc x) with (SFadd prec64 emax64 acc x). change (nadd (F64 L) acc' x') with (SFadd prec64 emax64 acc' x').
    refine (IH Hn' _ _ Hl' Hrs (S k) _ _ (E + r) _ _ (E' + r') I1 ltac:(lra) L2 I1' ltac:(lra) L2' _ ltac:(lra) ltac:(lra) ltac:(lia)).
    apply rnd_le. lra.
Qed.

Section Delta.
  Context {L : Libm}.
  Notation A := (F64 L).
  Notation G64 := (Minstd (F64 L)).
  Notation entry := (nuclide A * num A)%type.
  Variable f : nuclide A -> outcome (num A).
  Definition rate_of (e : entry) : R := value (snd e) * returned (f (fst e)).

  Lemma f_sum : forall (l : list entry) vs acc,
    mapM (fun e => f (fst e)) l = Ok vs ->
    foldM (fun acc x => bind (f (fst x)) (fun v => Ok (nadd A acc (nmul A (snd x) v)))) l acc =
    Ok (fold_left (nadd A) (map (fun ev => nmul A (snd (fst ev)) (snd ev)) (combine l vs)) acc).
  Proof.
    induction l as [|[nu a] l IH]; intros vs acc H; cbn [mapM] in H.
    - reflexivity.
    - apply bind_ok in H as (x & Ex & H). apply bind_ok in H as (vs' & Ev & H). injection H as <-.
      cbn [foldM fst snd] in *. rewrite Ex. cbn [bind combine map fold_left fst snd]. exact (IH _ _ Ev).
  Qed.
  Lemma f_products : forall l : list entry,
    List.Forall (fun e => double_up_to (powerRZ 2 400) (snd e) /\ returns_up_to (powerRZ 2 400) (f (fst e))) l ->
    exists vs rs', mapM (fun e => f (fst e)) l = Ok vs
      /\ are64 (map (fun ev => nmul A (snd (fst ev)) (snd ev)) (combine l vs)) rs'
      /\ rs' = map (fun e => rnd (rate_of e)) l
      /\ Forall2 rounded rs' (map rate_of l)
      /\ length (map (fun ev => nmul A (snd (fst ev)) (snd ev)) (combine l vs)) = length l
      /\ Rsum rs' <= INR (length l) * bpow radix2 801.
  Proof.
    induction 1 as [|[nu a] l [Ha (x & Ex & Hx)] _ (vs & rs' & IH1 & IH2 & IH6 & IH3 & IH4 & IH5)].
    - exists [], []. split; [reflexivity|]. split; [constructor|]. split; [reflexivity|]. split; [constructor|].
      split; [reflexivity|]. change (0 <= 0 * bpow radix2 801). lra.
    - cbn [fst snd] in *. apply up_to_is64 in Ha as [Ia Ba]. apply up_to_is64 in Hx as [Ix Bx].
      rewrite pow_bpow in *. set (w := value a * value x).
      assert (W : 0 <= w <= bpow radix2 800).
      { unfold w. split; [apply Rmult_le_pos; lra|]. change 800%Z with (400 + 400)%Z. rewrite bpow_plus.
        apply Rmult_le_compat; lra. }
      assert (R0 : 0 <= rnd w) by (apply rnd_nonneg; lra).
      assert (Rb : rnd w <= bpow radix2 801).
      { assert (E801 : bpow radix2 801 = 2 * bpow radix2 800).
        { change 801%Z with (1 + 800)%Z. rewrite bpow_plus. reflexivity. }
        pose proof (rnd_any w) as K. rewrite (Rabs_pos_eq w) in K by lra. apply Rabs_le_inv in K.
        rewrite u53_val in K. assert (tiny64 <= bpow radix2 790) by (apply bpow_le; lia).
        assert (bpow radix2 800 = 1024 * bpow radix2 790).
        { change 800%Z with (10 + 790)%Z. rewrite bpow_plus. reflexivity. }
        lra. }
      assert (Er : rate_of (nu, a) = w) by (unfold rate_of; cbn [fst snd]; rewrite Ex; reflexivity).
      exists (x :: vs), (rnd w :: rs'). cbn [mapM fst]. rewrite Ex. cbn [bind]. rewrite IH1. cbn [bind].
      split; [reflexivity|]. cbn [combine map fst snd]. split; [|split; [|split; [|split]]].
      + constructor; [|exact IH2]. change (nmul A a x) with (SFmul prec64 emax64 a x).
        apply is64_mul; auto. fold w. rewrite Rabs_pos_eq by exact R0.
        apply Rle_lt_trans with (1 := Rb). apply bpow_lt. lia.
      + now rewrite Er, IH6.
      + constructor; [|exact IH3]. rewrite Er.
        split; [intros ->; apply rnd_0|]. split; [lra|]. split; [exact R0|].
        pose proof (rnd_any w) as K. rewrite (Rabs_pos_eq w) in K by lra. exact K.
      + cbn [length]. now rewrite IH4.
      + cbn [Rsum length]. rewrite S_INR. lra.
  Qed.

  (** The computed sum, against the exact one. *)
  Lemma f_total (l : list entry) : (N.of_nat (length l) <= 65536)%N ->
    List.Forall (fun e => double_up_to (powerRZ 2 400) (snd e) /\ returns_up_to (powerRZ 2 400) (f (fst e))) l ->
    exists x tau, sum_afracs f l = Ok x /\ is64 x tau /\ 0 <= tau
      /\ 0 <= Rsum (map rate_of l)
      /\ Rabs (tau - Rsum (map rate_of l)) <= / 105000000000 * Rsum (map rate_of l) + bpow radix2 (-1000).
  Proof.
    intros Hl Hu. destruct (f_products l Hu) as (vs & rs' & Ev & Hx & _ & Hr & Lx & Hb).
    set (xs := map (fun ev => nmul A (snd (fst ev)) (snd ev)) (combine l vs)) in *.
    destruct (rounded_nonneg _ _ Hr) as [Hn' Hn].
    assert (Hi : 0 <= INR (length l) <= 65536).
    { split; [apply pos_INR|]. rewrite INR_IZR_INZ. apply IZR_le. lia. }
    assert (Hh : Rsum rs' <= huge).
    { apply Rle_trans with (1 := Hb). apply Rle_trans with (bpow radix2 16 * bpow radix2 801).
      - apply Rmult_le_compat_r; [apply bpow_ge_0|]. change (bpow radix2 16) with 65536. lra.
      - rewrite <- bpow_plus. apply bpow_le. lia. }
    assert (Lz : @length spec_float xs = length l) by exact Lx.
    destruct (sum_left64 L xs rs' Hx Hn' Hh) as (tau & It & Bt); [rewrite Lz; lia|].
    destruct (many (@length spec_float xs)) as [M1 M2]; [rewrite Lz; lia|].
    exists (fold_left (nadd A) xs (nofZ A 0)), tau. split; [exact (f_sum l vs (nofZ A 0) Ev)|]. split; [exact It|].
    pose proof (Rsum_nonneg _ Hn) as T0. 
    pose proof (rounded_sum _ _ Hr) as Cl. rewrite map_length in Cl.
    assert (Tiny : INR (length l) * tiny64 <= bpow radix2 (-1001)).
    { apply Rle_trans with (65536 * tiny64); [apply Rmult_le_compat_r; [apply bpow_ge_0|lra]|].
      change 65536 with (bpow radix2 16). rewrite <- bpow_plus. apply bpow_le. lia. }
    assert (E1000 : bpow radix2 (-1000) = 2 * bpow radix2 (-1001)).
    { change (-1000)%Z with (1 + -1001)%Z. rewrite bpow_plus. reflexivity. }
    rewrite E1000. pose proof (bpow_gt_0 radix2 (-1001)) as P.
    set (T := Rsum (map rate_of l)) in *. set (t := bpow radix2 (-1001)) in *. set (S' := Rsum rs') in *.
    apply Rabs_le_inv in Cl. rewrite u53_val in Cl. pose proof (Rsum_nonneg _ Hn') as S0. fold S' in S0.
    assert (Bl : (1 - / 120000000000) * S' <= tau) by (apply Rle_trans with (2 := proj1 Bt); apply Rmult_le_compat_r; lra).
    assert (Bh : tau <= (1 + / 110000000000) * S') by (apply Rle_trans with (1 := proj2 Bt); apply Rmult_le_compat_r; lra).
    split; [lra|]. split; [exact T0|]. apply Rabs_le. split; lra.
  Qed.
End Delta.

Section Step.
  Context {L : Libm}.
  Notation A := (F64 L).
  Notation G64 := (Minstd (F64 L)).
  Notation entry := (nuclide A * num A)%type.

  Lemma delta_sums (p : particle A G64) (l : list entry) : (N.of_nat (length l) <= 65536)%N ->
    List.Forall (bounded_entry p) l -> powerRZ 2 (-900) <= exact_bounds p l ->
    exists x y tau mu, sum_afracs (fun nu => nu_total nu p) l = Ok x
      /\ sum_afracs (fun nu => nu_majorant nu p) l = Ok y
      /\ is64 x tau /\ is64 y mu /\ 0 <= tau <= mu
      /\ 0 <= exact_rates p l <= exact_bounds p l
      /\ Rabs (tau - exact_rates p l) <= / 100000000000 * exact_bounds p l
      /\ Rabs (mu - exact_bounds p l) <= / 100000000000 * exact_bounds p l.
  Proof.
    intros Hl Hb HM. rewrite pow_bpow in HM.
    assert (Ht : List.Forall (fun e => double_up_to (powerRZ 2 400) (snd e) /\ returns_up_to (powerRZ 2 400) (nu_total (fst e) p)) l)
      by (eapply Forall_impl; [|exact Hb]; intros e (H1 & H2 & _); split; assumption).
    assert (Hm : List.Forall (fun e => double_up_to (powerRZ 2 400) (snd e) /\ returns_up_to (powerRZ 2 400) (nu_majorant (fst e) p)) l)
      by (eapply Forall_impl; [|exact Hb]; intros e (H1 & _ & H2 & _); split; assumption).
    destruct (f_total (fun nu => nu_total nu p) l Hl Ht) as (x & tau & Ex & Ix & t0 & T0 & Bt).
    destruct (f_total (fun nu => nu_majorant nu p) l Hl Hm) as (y & mu & Ey & Iy & _ & M0 & Bm).
    change (Rsum (map (rate_of (fun nu => nu_total nu p)) l)) with (exact_rates p l) in *.
    change (Rsum (map (rate_of (fun nu => nu_majorant nu p)) l)) with (exact_bounds p l) in *.
    assert (Hle : Forall2 Rle (map (exact_rate p) l) (map (exact_bound p) l)).
    { clear - Hb. induction Hb as [|e l (H1 & _ & _ & H4) _ IH]; [constructor|]. constructor; [|exact IH].
      unfold exact_rate, exact_bound. apply Rmult_le_compat_l; [exact (proj1 (proj2 (proj2 H1)))|exact H4]. }
    assert (TM : exact_rates p l <= exact_bounds p l).
    { unfold exact_rates, exact_bounds. clear - Hle. induction Hle; cbn [Rsum]; lra. }
    exists x, y, tau, mu. split; [exact Ex|]. split; [exact Ey|]. split; [exact Ix|]. split; [exact Iy|].
    split; [split; [exact t0|]|split; [lra|]].
    - destruct (f_products (fun nu => nu_total nu p) l Ht) as (vs & rs & Ev & Hx & Er & Hr & Lx & Hs).
      destruct (f_products (fun nu => nu_majorant nu p) l Hm) as (vs' & rs' & Ev' & Hx' & Er' & Hr' & Lx' & Hs').
      destruct (rounded_nonneg _ _ Hr) as [Hn _]. destruct (rounded_nonneg _ _ Hr') as [Hn' _].
      assert (Hi : 0 <= INR (length l) <= 65536).
      { split; [apply pos_INR|]. rewrite INR_IZR_INZ. apply IZR_le. lia. }
      assert (Hh : INR (length l) * bpow radix2 801 <= huge).
      { apply Rle_trans with (bpow radix2 16 * bpow radix2 801).
        - apply Rmult_le_compat_r; [apply bpow_ge_0|]. change (bpow radix2 16) with 65536. lra.
        - rewrite <- bpow_plus. apply bpow_le. lia. }
      assert (Hr2 : Forall2 Rle rs rs').
      { subst rs rs'. clear - Hle. change (exact_rate p) with (rate_of (fun nu => nu_total nu p)) in Hle.
        change (exact_bound p) with (rate_of (fun nu => nu_majorant nu p)) in Hle.
        induction l as [|e l IH]; [constructor|]. cbn [map] in *. inversion Hle; subst.
        constructor; [now apply rnd_le|auto]. }
      assert (Lz : @length spec_float (map (fun ev => nmul A (snd (fst ev)) (snd ev)) (combine l vs)) = length l) by exact Lx.
      destruct (sum_mono L _ _ Hx Hn _ _ Hx' Hr2 0%nat (nofZ A 0) 0 0 (nofZ A 0) 0 0) as (s & s' & Is & Is' & Ls);
        try (cbn; lra); try exact zero64; try lra.
      { rewrite Lz. lia. }
      pose proof (f_sum (fun nu => nu_total nu p) l vs (nofZ A 0) Ev) as S1. pose proof (f_sum (fun nu => nu_majorant nu p) l vs' (nofZ A 0) Ev') as S2.
      apply (eq_trans (eq_sym Ex)) in S1. apply (eq_trans (eq_sym Ey)) in S2. apply Ok_inj in S1, S2. subst x y.
      rewrite <- (is64_value _ _ Ix), <- (is64_value _ _ Iy). 
      rewrite (is64_value _ _ Is), (is64_value _ _ Is'). exact Ls.
    - assert (P : bpow radix2 (-1000) <= / 1152921504606846976 * bpow radix2 (-900)).
      { change (/ 1152921504606846976) with (bpow radix2 (-60)). rewrite <- bpow_plus. apply bpow_le. lia. }
      pose proof (bpow_gt_0 radix2 (-900)).
      split; [apply Rle_trans with (1 := Bt)|apply Rle_trans with (1 := Bm)]; lra.
  Qed.

  Lemma near_quotient tau mu T M : 0 < M -> 0 <= T <= M -> 0 <= tau <= mu ->
    Rabs (tau - T) <= / 100000000000 * M -> Rabs (mu - M) <= / 100000000000 * M ->
    Rabs (tau / mu - T / M) <= / 45000000000.
  Proof.
    intros HM HT Ht B1 B2. apply Rabs_le_inv in B1, B2.
    assert (mu0 : 0 < mu) by lra.
    assert (E : tau / mu - T / M = ((tau - T) + (T / M) * (M - mu)) / mu) by (field; lra).
    assert (Q : 0 <= T / M <= 1).
    { split; [apply over_nonneg; lra|]. apply Rmult_le_reg_r with M; [lra|]. unfold Rdiv. rewrite Rmult_assoc, Rinv_l by lra. lra. }
    rewrite E. unfold Rdiv at 1. rewrite Rabs_mult, (Rabs_pos_eq (/ mu)) by (left; now apply Rinv_0_lt_compat).
    apply Rmult_le_reg_r with mu; [lra|]. rewrite Rmult_assoc, Rinv_l, Rmult_1_r by lra.
    assert (K : Rabs (T / M * (M - mu)) <= / 100000000000 * M).
    { rewrite Rabs_mult, (Rabs_pos_eq (T / M)) by lra. rewrite <- (Rmult_1_l (/ 100000000000 * M)).
      apply Rmult_le_compat; [lra|apply Rabs_pos|lra|apply Rabs_le; lra]. }
    apply Rle_trans with (1 := Rabs_triang _ _).
    assert (Rabs (tau - T) <= / 100000000000 * M) by (apply Rabs_le; lra).
    lra.
  Qed.

  Lemma delta_quotient (p : particle A G64) m :
    (N.of_nat (length (m_afracs m)) <= 65536)%N -> List.Forall (bounded_entry p) (m_afracs m) ->
    let T := exact_rates p (m_afracs m) in
    let M := exact_bounds p (m_afracs m) in
    powerRZ 2 (-900) <= M ->
    exists total majorant, mat_total m p = Ok total /\ mat_majorant m p = Ok majorant
      /\ is_double total /\ finite total /\ is_double majorant /\ finite majorant
      /\ 0 <= value total <= value majorant /\ 0 < value majorant
      /\ let q := ndiv A total majorant in
         is_double q /\ finite q /\ 0 <= value q <= 1 /\ Rabs (value q - T / M) <= slack.
  Proof.
    intros Hl Hb T M HM. destruct (delta_sums p _ Hl Hb HM) as (x & y & tau & mu & Ex & Ey & Ix & Iy & [t0 Hle] & [T0 TM] & Bt & Bm).
    fold T M in T0, TM, Bt, Bm. rewrite pow_bpow in HM. pose proof (bpow_gt_0 radix2 (-900)) as P9.
    exists x, y. split; [unfold mat_total; rewrite Ex; reflexivity|]. split; [unfold mat_majorant; rewrite Ey; reflexivity|].
    destruct (is64_double _ _ Ix) as [Dx Fx]. destruct (is64_double _ _ Iy) as [Dy Fy].
    split; [exact Dx|]. split; [exact Fx|]. split; [exact Dy|]. split; [exact Fy|].
    rewrite (is64_value _ _ Ix), (is64_value _ _ Iy).
    pose proof Bm as Bm'. apply Rabs_le_inv in Bm'.
    split; [lra|]. assert (mu0 : 0 < mu) by lra. split; [exact mu0|].
    assert (Q : 0 <= tau / mu <= 1).
    { split; [apply over_nonneg; lra|]. apply Rmult_le_reg_r with mu; [lra|]. unfold Rdiv. rewrite Rmult_assoc, Rinv_l by lra. lra. }
    assert (R01 : 0 <= rnd (tau / mu) <= 1).
    { split; [apply rnd_nonneg; lra|]. apply rnd_le_format; [exact (int_format 1 ltac:(lia))|lra]. }
    assert (Iq : is64 (SFdiv prec64 emax64 x y) (rnd (tau / mu))).
    { apply is64_div; auto; [lra|]. rewrite Rabs_pos_eq by lra. apply Rle_lt_trans with 1; [lra|].
      change 1 with (bpow radix2 0). apply bpow_lt. lia. }
    cbv zeta. change (ndiv A x y) with (SFdiv prec64 emax64 x y).
    destruct (is64_double _ _ Iq) as [Dq Fq]. split; [exact Dq|]. split; [exact Fq|]. rewrite (is64_value _ _ Iq). split; [exact R01|].
    pose proof (near_quotient tau mu T M ltac:(lra) ltac:(lra) ltac:(lra) Bt Bm) as K.
    pose proof (rnd_any (tau / mu)) as K2. rewrite (Rabs_pos_eq (tau / mu)), u53_val in K2 by lra.
    assert (tiny64 <= / 1152921504606846976).
    { change (/ 1152921504606846976) with (bpow radix2 (-60)). apply bpow_le. lia. }
    rewrite slack_val. apply Rabs_le_inv in K, K2. apply Rabs_le. lra.
  Qed.

  (** A real collision and a virtual one at distance [d]. *)
  Lemma delta_outcome fuel (w : world A) (p q : particle A G64) c m total majorant s ds :
    transport_step CellDeltaTracking fuel w p = Ok q -> in_material p c m ->
    mat_total m p = Ok total -> mat_majorant m p = Ok majorant ->
    nearest_surface c (p_position p) (p_direction p) = Ok (s, ds) ->
    let (d, s1) := exponential G64 (nmul A (m_density m) majorant) (p_rng p) in
    SFltb ds d = false ->
    let site := padd (p_position p) (pscale (p_direction p) d) in
    if SFltb (fst (runif G64 s1)) (ndiv A total majorant)
    then exists nu a x, In (nu, a) (m_afracs m) /\ p_position x = site /\ p_cell x = p_cell p
           /\ same_flight p x /\ nu_interact fuel nu x = Ok q
    else p_event q = virtual_collision /\ p_position q = site
         /\ p_cell q = p_cell p /\ same_flight p q.
  Proof.
    intros H [Ec Em] ET EM En.
    cbn [transport_step] in H. unfold delta_step, sample_distance in H.
    assert (Gm : get_material p = Ok m).
    { unfold get_material, get_cell. rewrite Ec. cbn. rewrite Em. reflexivity. }
    rewrite Gm in H. cbn [bind] in H. unfold collision_density in H. rewrite Gm in H. cbn [bind] in H.
    rewrite EM in H. cbn [bind noexcept] in H.
    destruct (exponential G64 (nmul A (m_density m) majorant) (p_rng p)) as [d s1]. intros Lt site.
    cbn [bind] in H. set (p1 := set_rng p s1) in *.
    assert (Gc : get_cell p1 = Ok c) by (unfold get_cell; cbn; rewrite Ec; reflexivity).
    rewrite Gc in H. cbn [bind] in H.
    change (nearest_surface c (p_position p1) (p_direction p1))
      with (nearest_surface c (p_position p) (p_direction p)) in H.
    rewrite En in H. cbn [bind] in H. change (nltb A ds d) with (SFltb ds d) in H. rewrite Lt in H.
    assert (Gm1 : get_material p1 = Ok m).
    { unfold get_material. rewrite Gc. cbn. rewrite Em. reflexivity. }
    rewrite Gm1 in H. cbn [bind] in H.
    assert (S1 : same_here p p1) by (constructor; auto).
    rewrite (same_mat_total m p p1 S1), (same_mat_majorant m p p1 S1), ET, EM in H. cbn [bind] in H.
    unfold bernoulli in H. change (p_rng p1) with s1 in H. destruct (runif G64 s1) as [v s2].
    cbn [fst]. change (nltb A v (ndiv A total majorant)) with (SFltb v (ndiv A total majorant)) in H.
    destruct (SFltb v (ndiv A total majorant)).
    - unfold collide in H. apply bind_ok in H as (x & Ex & H).
      apply bind_ok in H as ([nu p4] & Es & H).
      unfold stream in Ex. apply -> @noexcept_ok in Ex. apply bind_ok in Ex as (eff & _ & Ex).
      apply Ok_inj in Ex. subst x.
      apply sample_nuclide_ok in Es as (Dr & c' & m' & a & Ec' & Em' & Hin).
      cbn in Ec'. rewrite Ec in Ec'. injection Ec' as <-. rewrite Em in Em'. injection Em' as <-.
      exists nu, a, p4. rewrite Dr. split; [exact Hin|]. split; [reflexivity|]. split; [reflexivity|].
      split; [repeat split; reflexivity|]. rewrite Dr in H. exact H.
    - apply bind_ok in H as (x & Ex & H). apply Ok_inj in H. subst q.
      unfold stream in Ex. apply -> @noexcept_ok in Ex. apply bind_ok in Ex as (eff & _ & Ex).
      apply Ok_inj in Ex. subst x. cbn. repeat split; auto.
  Qed.
End Step.

Lemma tight_sum {L : Libm} {G : Rng (F64 L)} (p : particle (F64 L) G) l : List.Forall (tight_entry p) l ->
  forall acc, foldM (fun acc x => bind (nu_total (fst x) p) (fun v => Ok (nadd (F64 L) acc (nmul (F64 L) (snd x) v)))) l acc
  = foldM (fun acc x => bind (nu_majorant (fst x) p) (fun v => Ok (nadd (F64 L) acc (nmul (F64 L) (snd x) v)))) l acc.
Proof.
  induction 1 as [|[nu a] l E _ IH]; intros acc; cbn [foldM fst snd]; [reflexivity|]. unfold tight_entry in E. cbn [fst] in E.
  rewrite E. destruct (nu_total nu p) as [y| | | |]; cbn [bind]; [apply IH|reflexivity..].
Qed.

Lemma C96_probability_proof :
  forall (L : Libm) (p : particle (F64 L) (Minstd (F64 L))) m,
  (N.of_nat (length (m_afracs m)) <= 65536)%N ->
  List.Forall (bounded_entry p) (m_afracs m) ->
  let T := exact_rates p (m_afracs m) in
  let M := exact_bounds p (m_afracs m) in
  powerRZ 2 (-900) <= M ->
  exists total majorant : spec_float, mat_total m p = Ok total /\ mat_majorant m p = Ok majorant
    /\ is_double total /\ finite total /\ is_double majorant /\ finite majorant
    /\ 0 <= value total <= value majorant /\ 0 < value majorant
    /\ let q := SFdiv prec64 emax64 total majorant in
       is_double q /\ finite q /\ 0 <= value q <= 1 /\ Rabs (value q - T / M) <= slack.
Proof. intros L. exact delta_quotient. Qed.

Lemma C96_step_proof :
  forall (L : Libm) fuel (w : world (F64 L)) (p q : particle (F64 L) (Minstd (F64 L))) c m s ds,
  transport_step CellDeltaTracking fuel w p = Ok q ->
  in_material p c m ->
  (N.of_nat (length (m_afracs m)) <= 65536)%N ->
  List.Forall (bounded_entry p) (m_afracs m) ->
  let T := exact_rates p (m_afracs m) in
  let M := exact_bounds p (m_afracs m) in
  powerRZ 2 (-900) <= M ->
  nearest_surface c (p_position p) (p_direction p) = Ok (s, ds) ->
  exists majorant, mat_majorant m p = Ok majorant
  /\ let (d, s1) := exponential (Minstd (F64 L)) (nmul (F64 L) (m_density m) majorant) (p_rng p) in
     (* the distance drawn does not reach the next surface *)
     SFltb ds d = false ->
     let site := padd (p_position p) (pscale (p_direction p) d) in
     let u := value (draw (Minstd (F64 L)) 0 s1) in
     let real := exists nu a x, In (nu, a) (m_afracs m) /\ p_position x = site /\ p_cell x = p_cell p
                   /\ same_flight p x /\ nu_interact fuel nu x = Ok q in
     let virtual := p_event q = virtual_collision /\ p_position q = site /\ p_cell q = p_cell p
                    /\ same_flight p q in
     (real \/ virtual)
     /\ (u < T / M - slack -> real)
     /\ (T / M + slack < u -> virtual)
     (* majorants that are totals: never virtual *)
     /\ (List.Forall (tight_entry p) (m_afracs m) -> real).
Proof.
  intros L fuel w p q c m s ds H Hm Hl Hb T M HM En.
  destruct (delta_quotient p m Hl Hb HM) as (total & majorant & ET & EM & Dt & Ft & Dm & Fm & Le & Pos & Dq & Fq & Bq & Nq).
  fold T M in Nq. exists majorant. split; [exact EM|].
  pose proof (delta_outcome fuel w p q c m total majorant s ds H Hm ET EM En) as K.
  destruct (exponential (Minstd (F64 L)) (nmul (F64 L) (m_density m) majorant) (p_rng p)) as [d s1].
  intros Lt site u real virtual. specialize (K Lt). cbv zeta in K. fold site in K.
  destruct (unif64 L s1) as (v & Iv & Bv).
  assert (Uv : u = v). { unfold u, draw. cbn. apply is64_value. exact Iv. }
  pose proof (double_is64 _ Dq Fq) as Iq.
  rewrite (is64_ltb _ _ _ _ Iv Iq) in K.
  apply Rabs_le_inv in Nq.
  split; [|split; [|split]].
  - destruct (Rlt_bool v (value (ndiv (F64 L) total majorant))); [left|right]; exact K.
  - intros Hu. rewrite Rlt_bool_true in K by lra. exact K.
  - intros Hu. rewrite Rlt_bool_false in K by lra. exact K.
  - intros Ht. rewrite Rlt_bool_true in K; [exact K|].
    assert (E : total = majorant).
    { pose proof (tight_sum p (m_afracs m) Ht (nofZ (F64 L) 0)) as E0.
      apply (f_equal noexcept) in E0. apply (eq_trans (eq_sym ET)) in E0.
      apply Ok_inj. exact (eq_trans E0 EM). }
    subst total. pose proof (double_is64 _ Dm Fm) as Im.
    assert (Iq' : is64 (SFdiv prec64 emax64 majorant majorant) 1).
    { replace 1 with (rnd (value majorant / value majorant)).
      - apply is64_div; auto; [lra|]. rewrite over_self by lra. rewrite rnd_id by exact (int_format 1 ltac:(lia)).
        rewrite Rabs_pos_eq by lra. change 1 with (bpow radix2 0). apply bpow_lt. lia.
      - rewrite over_self by lra. apply rnd_id. exact (int_format 1 ltac:(lia)). }
    change (ndiv (F64 L) majorant majorant) with (SFdiv prec64 emax64 majorant majorant).
    rewrite (is64_value _ _ Iq'). pose proof (bpow_gt_0 radix2 (-32)). lra.
Qed.
