(** Sampling of thermal scattering. *)
From Coq Require Import Bool String List Reals ZArith NArith Lra Lia.
From Verif Require Import Model.Num Model.Outcome Model.Rng Model.Xml Model.Std Model.Point
  Model.Surface Model.Types Model.Bins Model.Field Model.Tables Model.Particle Model.Thermal
  Model.Continuous Spec.Vec Spec.RngSpec Spec.SumSpec Spec.BinsSpec Spec.TablesSpec
  Spec.ContinuousSpec Spec.FreeGasSpec Spec.ThermalSpec Proofs.RealLib Proofs.OutcomeLib
  Proofs.BinsProofs Proofs.RngProofs Proofs.TablesProofs Proofs.StepLib Proofs.ContinuousProofs
  Proofs.DirectionProofs Proofs.FreeGasProofs Proofs.ThermalProofs.
Import ListNotations.
Local Open Scope R_scope.

(** ** C68: values between temperatures *)

Lemma foldM_sums {X} (g g' : X -> outcome xr) (h h' : X -> R) (l : list X) : forall acc acc',
  (forall o, In o l -> g o = Ok (Fin (h o))) -> (forall o, In o l -> g' o = Ok (Fin (h' o))) ->
  foldM (fun a o => bind (g o) (fun x => bind (g' o) (fun x' =>
           Ok (xadd (fst a) x, xadd (snd a) x')))) l (Fin acc, Fin acc')
  = Ok (Fin (acc + Rsum (map h l)), Fin (acc' + Rsum (map h' l))).
Proof.
  induction l as [|o l IH]; intros acc acc' H H'; cbn [foldM map Rsum].
  - do 2 f_equal; f_equal; ring.
  - rewrite (H o), (H' o) by now left. cbn [bind xadd fst snd].
    rewrite IH by (intros; (apply H || apply H'); now right).
    do 2 f_equal; f_equal; ring.
Qed.

Lemma partition_evaluate_real pa Fs grid Ts W i k (T : R) :
  partition_table pa Fs grid Ts W -> increasing Ts -> Ts <> [] ->
  (i < length Fs)%nat -> (k < length grid)%nat ->
  exists v, partition_evaluate (A := XRa) pa (N.of_nat i) (N.of_nat k) (Fin T) = Ok v
    /\ (forall j, (S j < length Ts)%nat -> nth j Ts 0 <= T < nth (S j) Ts 0 ->
          v = Fin (chord (nth j Ts 0) (W i k j) (nth (S j) Ts 0) (W i k (S j)) T))
    /\ (forall j, (S (S j) = length Ts)%nat -> last Ts 0 <= T ->
          v = Fin (chord (nth j Ts 0) (W i k j) (nth (S j) Ts 0) (W i k (S j)) T))
    /\ (T < nth 0 Ts 0 \/ length Ts = 1%nat -> v = NaN).
Proof.
  intros (o & o' & o'' & c & s & g & L1 & L2 & B1 & B2 & Ac & As & Ag & Ew) IT NT Hi Hk.
  unfold partition_evaluate. rewrite (array_axis _ _ _ 1%N Ts Ag eq_refl). cbn [bind].
  destruct (temperature_indices_real T Ts IT NT B1)
    as (above & below & hi & lo & -> & Hhi & Hlo & T1 & T2 & T3 & T4 & T5). cbn [bind].
  rewrite (array_axis _ _ _ 0%N o As eq_refl). cbn [bind]. rewrite map_length.
  assert (At : forall q j, (q < length o)%nat -> (j < length Ts)%nat ->
    ds_at (pa_singular pa) [N.of_nat q] = Ok (Fin (s [N.of_nat q]))
    /\ ds_at (pa_cdf pa) [N.of_nat i; N.of_nat q] = Ok (Fin (c [N.of_nat i; N.of_nat q]))
    /\ ds_at (pa_grid pa) [N.of_nat k; N.of_nat j; N.of_nat q]
       = Ok (Fin (g [N.of_nat k; N.of_nat j; N.of_nat q]))).
  { intros q j Hq Hj. destruct As as [_ As], Ac as [_ Ac], Ag as [_ Ag].
    rewrite As, Ac, Ag; [auto| | |]; unfold shape_of; cbn [map];
      repeat (apply Forall2_cons; [lia|]); apply Forall2_nil. }
  match goal with |- context [foldM ?f _ _] => rewrite (foldM_ext f (fun a q =>
      bind (Ok (xmul (xmul (Fin (s [N.of_nat q])) (Fin (c [N.of_nat i; N.of_nat q])))
                     (Fin (g [N.of_nat k; N.of_nat hi; N.of_nat q])))) (fun x =>
      bind (Ok (xmul (xmul (Fin (s [N.of_nat q])) (Fin (c [N.of_nat i; N.of_nat q])))
                     (Fin (g [N.of_nat k; N.of_nat lo; N.of_nat q])))) (fun x' =>
      Ok (xadd (fst a) x, xadd (snd a) x'))))) end.
  2: { intros a q Hq. apply in_seq in Hq.
       destruct (At q hi ltac:(lia) Hhi) as (E1 & E2 & E3).
       destruct (At q lo ltac:(lia) Hlo) as (_ & _ & E4).
       rewrite E1. cbn [bind]. rewrite E2. cbn [bind]. rewrite E3. cbn [bind]. rewrite E4.
       reflexivity. }
  change (nofZ XRa 0) with (Fin 0).
  rewrite (foldM_sums _ _
     (fun q => s [N.of_nat q] * c [N.of_nat i; N.of_nat q] * g [N.of_nat k; N.of_nat hi; N.of_nat q])
     (fun q => s [N.of_nat q] * c [N.of_nat i; N.of_nat q] * g [N.of_nat k; N.of_nat lo; N.of_nat q]))
    by (intros; reflexivity).
  cbn [bind]. rewrite !vec_fin by lia. cbn [bind].
  match goal with |- context [Fin (0 + ?a)] => replace (0 + a) with (W i k hi)
    by (rewrite Ew, map_indices by lia; ring) end.
  match goal with |- context [Fin (0 + ?a)] => replace (0 + a) with (W i k lo)
    by (rewrite Ew, map_indices by lia; ring) end.
  eexists. split; [reflexivity|].
  assert (In : forall a b, (a < b < length Ts)%nat -> nth a Ts 0 < nth b Ts 0)
    by (intros; now apply increasing_nth_lt).
  change (nadd XRa ?a ?b) with (xadd a b).
  assert (Q : forall j, hi = S j -> lo = j ->
     nadd XRa (Fin (W i k lo)) (nmul XRa (ndiv XRa (nsub XRa (Fin (W i k hi)) (Fin (W i k lo)))
       (nsub XRa (Fin (nth hi Ts 0)) (Fin (nth lo Ts 0)))) (nsub XRa (Fin T) (Fin (nth lo Ts 0))))
     = Fin (chord (nth j Ts 0) (W i k j) (nth (S j) Ts 0) (W i k (S j)) T)).
  { intros j -> ->. specialize (In j (S j) ltac:(lia)).
    change (xadd (Fin (W i k j)) (xmul (xdiv (Fin (W i k (S j) + - W i k j))
      (Fin (nth (S j) Ts 0 + - nth j Ts 0))) (Fin (T + - nth j Ts 0)))
      = Fin (chord (nth j Ts 0) (W i k j) (nth (S j) Ts 0) (W i k (S j)) T)).
    rewrite xdiv_fin by lra. cbn [xmul xadd]. f_equal. unfold chord. field. lra. }
  split; [|split].
  - intros j Hj [Hl Hr]. assert (Ej : hi = S j).
    { destruct below.
      * destruct (T1 eq_refl) as [-> ->]. destruct above.
        -- destruct (T4 eq_refl). lia.
        -- specialize (T3 eq_refl). destruct (Nat.eq_dec j 0) as [->|]; [lra|].
           specialize (In O j ltac:(lia)). lra.
      * specialize (T2 eq_refl). specialize (T5 eq_refl). subst hi. f_equal. destruct above.
        -- destruct (T4 eq_refl) as [Hla He]. rewrite last_nth in Hla.
           destruct (Nat.eq_dec (S j) (length Ts - 1)) as [Z|]; [rewrite Z in *; lra|].
           specialize (In (S j) (length Ts - 1)%nat ltac:(lia)). lra.
        -- specialize (T3 eq_refl). destruct (Nat.lt_trichotomy lo j) as [|[|]]; auto.
           ++ destruct (Nat.eq_dec (S lo) j) as [<-|]; [lra|]. specialize (In (S lo) j ltac:(lia)). lra.
           ++ destruct (Nat.eq_dec (S j) lo) as [<-|]; [lra|]. specialize (In (S j) lo ltac:(lia)). lra. }
    apply Q; auto. destruct below; [destruct (T1 eq_refl) as [-> _]; lia|]. specialize (T2 eq_refl). lia.
  - intros j Hj Hl. rewrite last_nth in Hl. replace (length Ts - 1)%nat with (S j) in * by lia.
    destruct below.
    + destruct (T1 eq_refl) as [-> ->]. destruct above.
      * destruct (T4 eq_refl). lia.
      * specialize (T3 eq_refl). specialize (In O (S j) ltac:(lia)). lra.
    + specialize (T2 eq_refl). destruct above.
      * destruct (T4 eq_refl). apply Q; lia.
      * specialize (T3 eq_refl). destruct (Nat.eq_dec hi (S j)) as [->|]; [lra|].
        specialize (In hi (S j) ltac:(lia)). lra.
  - intros Hor. assert (Eb : below = true).
    { destruct below; auto. specialize (T2 eq_refl). specialize (T5 eq_refl). exfalso.
      destruct Hor as [Hor|]; [|lia].
      destruct (Nat.eq_dec lo 0) as [->|]; [lra|]. specialize (In O lo ltac:(lia)). lra. }
    destruct (T1 Eb) as [-> ->].
    change (xadd (Fin (W i k 0%nat)) (xmul (xdiv (Fin (W i k 0%nat + - W i k 0%nat))
      (Fin (nth 0 Ts 0 + - nth 0 Ts 0))) (Fin (T + - nth 0 Ts 0))) = NaN).
    rewrite !Rplus_opp_r. cbn [xdiv]. rewrite Reqb_true by reflexivity.
    unfold xsinf. rewrite !Rltb_false by lra. reflexivity.
Qed.

Lemma C68_temperature_interpolation_partial_proof :
  forall pa Fs grid Ts W i k (T : R),
  partition_table pa Fs grid Ts W -> increasing Ts -> Ts <> [] ->
  (i < length Fs)%nat -> (k < length grid)%nat ->
  exists v, partition_evaluate (A := XRa) pa (N.of_nat i) (N.of_nat k) (Fin T) = Ok v
    (* between the lowest and the highest temperature *)
    /\ (nth 0 Ts 0 <= T < last Ts 0 -> exists x, v = Fin x /\ interpolated Ts (W i k) T x)
    (* at or above the highest the line through the last two points is continued *)
    /\ (forall j, (S (S j) = length Ts)%nat -> last Ts 0 <= T ->
          v = Fin (chord (nth j Ts 0) (W i k j) (nth (S j) Ts 0) (W i k (S j)) T))
    (* below the lowest, or if there is just one temperature, there is no value *)
    /\ (T < nth 0 Ts 0 \/ length Ts = 1%nat -> v = NaN).
Proof.
  intros pa Fs grid Ts W i k T P I N Hi Hk.
  destruct (partition_evaluate_real pa Fs grid Ts W i k T P I N Hi Hk) as (v & E & H1 & H2 & H3).
  exists v. split; [exact E|]. split; [|auto]. intros [L R].
  destruct (upper_bound_real Ts T I) as (h & _ & Hh & K1 & K2).
  destruct h as [|j]; [destruct Ts as [|x Ts]; [congruence|specialize (K2 O ltac:(cbn; lia)); lra]|].
  assert (Hj : (S j < length Ts)%nat).
  { destruct (Nat.eq_dec (S j) (length Ts)) as [Z|]; [|lia]. rewrite last_nth in R.
    specialize (K1 (length Ts - 1)%nat ltac:(lia)). lra. }
  assert (B : nth j Ts 0 <= T < nth (S j) Ts 0) by (split; [apply K1|apply K2]; lia).
  eexists. split; [apply (H1 j Hj B)|]. now apply in_between.
Qed.

(** ** C42 *)

Lemma Int_part_2 : Int_part 2 = 2%Z.
Proof. replace 2 with (INR 2) by (cbn; lra). apply Int_part_INR. Qed.
Lemma xpow_square x : xpow (Fin x) (Fin 2) = Fin (x ^ 2).
Proof.
  cbn [xpow]. pose proof Int_part_2 as I2.
  destruct (Rltb_spec 0 x) as [P|P].
  - f_equal. replace 2 with (INR 2) by (cbn; lra). now apply Rpower_pow.
  - destruct (Reqb_spec x 0) as [->|Z].
    + rewrite Rltb_true by lra. f_equal. ring.
    + rewrite I2, Reqb_true by reflexivity. reflexivity.
Qed.

Section Alpha.
  Context (G : Rng XRa) (t : thermal XRa) (awr E T : R).
  Context (Ha : th_awr t = Fin awr) (Pa : 0 < awr) (PE : 0 <= E) (PT : 0 < T).

  Lemma akT_pos : 0 < awr * k_B * T.
  Proof. pose proof k_B_pos. repeat apply Rmult_lt_0_compat; lra. Qed.

  Lemma alpha_limits_real b : 0 <= E + b * k_B * T ->
    alpha_limits (A := XRa) t (Fin b) (Fin E) (Fin T)
    = (Fin (alpha_min awr T E (E + b * k_B * T)), Fin (alpha_max awr T E (E + b * k_B * T))).
  Proof.
    intros Hb. pose proof akT_pos. unfold alpha_limits. rewrite boltzmann_real, Ha.
    change (nadd XRa (Fin E) (nmul XRa (nmul XRa (Fin b) (Fin k_B)) (Fin T)))
      with (Fin (E + b * k_B * T)).
    change (nsqrt XRa) with xsqrt. rewrite !xsqrt_fin by auto.
    change (nmul XRa (nmul XRa (Fin awr) (Fin k_B)) (Fin T)) with (Fin (awr * k_B * T)).
    change (npow XRa) with xpow. change (nofZ XRa 2) with (Fin 2).
    change (nadd XRa (Fin ?a) (Fin ?b)) with (Fin (a + b)).
    change (xpow (nsub XRa (Fin ?a) (Fin ?b)) (Fin 2)) with (xpow (Fin (a - b)) (Fin 2)).
    rewrite !xpow_square. change (ndiv XRa) with xdiv. rewrite !xdiv_fin by lra.
    reflexivity.
  Qed.

  (* an accepted candidate comes from a finite beta with a possible energy *)
  Lemma alpha_limits_finite b a :
    nltb XRa (fst (alpha_limits (A := XRa) t b (Fin E) (Fin T))) a = true ->
    nltb XRa a (snd (alpha_limits (A := XRa) t b (Fin E) (Fin T))) = true ->
    exists r x, b = Fin r /\ 0 <= E + r * k_B * T /\ a = Fin x
      /\ alpha_min awr T E (E + r * k_B * T) < x < alpha_max awr T E (E + r * k_B * T).
  Proof.
    pose proof akT_pos as Pk. pose proof k_B_pos as K. intros H1 H2. destruct b as [r| | |].
    - destruct (Rle_dec 0 (E + r * k_B * T)) as [P|N].
      + rewrite (alpha_limits_real r P) in *. cbn [fst snd] in *.
        destruct a as [x| | |]; cbn in H1, H2; try discriminate.
        exists r, x. repeat split; auto.
        * destruct (Rltb_spec (alpha_min awr T E (E + r * k_B * T)) x); [auto|discriminate].
        * destruct (Rltb_spec x (alpha_max awr T E (E + r * k_B * T))); [auto|discriminate].
      + exfalso. unfold alpha_limits in H1. rewrite boltzmann_real, Ha in H1.
        change (nadd XRa (Fin E) (nmul XRa (nmul XRa (Fin r) (Fin k_B)) (Fin T)))
          with (Fin (E + r * k_B * T)) in H1.
        change (nsqrt XRa (Fin (E + r * k_B * T))) with
          (if Rltb (E + r * k_B * T) 0 then NaN else Fin (sqrt (E + r * k_B * T))) in H1.
        rewrite (Rltb_true (E + r * k_B * T) 0) in H1 by lra. cbn in H1.
        destruct (Rltb E 0); cbn in H1; discriminate.
    - exfalso. unfold alpha_limits in H1. rewrite boltzmann_real, Ha in H1.
      change (nmul XRa (nmul XRa PInf (Fin k_B)) (Fin T)) with (xmul (xsinf k_B) (Fin T)) in H1.
      unfold xsinf in H1. rewrite Rltb_true in H1 by lra.
      change (xmul PInf (Fin T)) with (xsinf T) in H1. unfold xsinf in H1.
      rewrite Rltb_true in H1 by lra.
      change (nsqrt XRa (nadd XRa (Fin E) PInf)) with PInf in H1.
      change (nsqrt XRa (Fin E)) with (xsqrt (Fin E)) in H1. rewrite xsqrt_fin in H1 by lra.
      change (nsub XRa (Fin (sqrt E)) PInf) with NInf in H1.
      change (nofZ XRa 2) with (Fin 2) in H1. change (npow XRa NInf (Fin 2)) with (xpow NInf (Fin 2)) in H1.
      pose proof Int_part_2 as I2.
      cbn [xpow] in H1. rewrite I2, Rltb_true, Reqb_true in H1 by (try reflexivity; lra).
      cbn [andb Z.odd fst] in H1.
      change (nmul XRa (nmul XRa (Fin awr) (Fin k_B)) (Fin T)) with (Fin (awr * k_B * T)) in H1.
      change (ndiv XRa PInf (Fin (awr * k_B * T)))
        with (if Rltb (awr * k_B * T) 0 then NInf else PInf) in H1.
      rewrite Rltb_false in H1 by lra. destruct a; cbn in H1; discriminate.
    - exfalso. unfold alpha_limits in H1. rewrite boltzmann_real, Ha in H1.
      change (nmul XRa (nmul XRa NInf (Fin k_B)) (Fin T)) with (xmul (xsinf (- k_B)) (Fin T)) in H1.
      unfold xsinf in H1. rewrite Rltb_false, Rltb_true in H1 by lra.
      change (xmul NInf (Fin T)) with (xsinf (- T)) in H1. unfold xsinf in H1.
      rewrite Rltb_false, Rltb_true in H1 by lra.
      cbn in H1. destruct (Rltb E 0); cbn in H1; discriminate.
    - exfalso. unfold alpha_limits in H1. rewrite boltzmann_real, Ha in H1. cbn in H1.
      destruct (Rltb E 0); cbn in H1; discriminate.
  Qed.

  Lemma sample_alpha_loop_real pa local b b_s F_min F_max a_min a_max n : forall (p q : particle XRa G) a,
    0 <= E + b * k_B * T ->
    alpha_limits (A := XRa) t b_s (Fin E) (Fin T) = (a_min, a_max) ->
    sample_alpha_loop (A := XRa) n t pa local (Fin b) (Fin E) (Fin T) a_min a_max F_min F_max p = Ok (a, q) ->
    exists w, 0 < w < 1 /\ a = Fin (alpha_min awr T E (E + b * k_B * T)
      + w * (alpha_max awr T E (E + b * k_B * T) - alpha_min awr T E (E + b * k_B * T))).
  Proof.
    induction n as [|n IH]; intros p q a Hb El H; cbn [sample_alpha_loop] in H; [discriminate|].
    destruct (p_unif p) as [u p1]. apply bind_ok in H as (a' & Ea & H).
    destruct (nltb XRa a_min a') eqn:L1; [destruct (nltb XRa a' a_max) eqn:L2|]; cbn [andb] in H;
      [|apply (IH _ _ _ Hb El H)|apply (IH _ _ _ Hb El H)].
    rewrite (alpha_limits_real b Hb) in H. injection H as <- <-.
    destruct (alpha_limits_finite b_s a') as (r & x & -> & Hr & -> & B);
      [now rewrite El|now rewrite El|].
    rewrite (alpha_limits_real r Hr) in El. injection El as <- <-.
    set (l := alpha_min awr T E (E + r * k_B * T)) in *.
    set (h := alpha_max awr T E (E + r * k_B * T)) in *.
    exists ((x - l) / (h - l)). split.
    - split.
      + apply Rdiv_lt_0_compat; lra.
      + apply (Rmult_lt_reg_r (h - l)); [lra|]. unfold Rdiv. rewrite Rmult_assoc, Rinv_l by lra. lra.
    - set (bl := alpha_min awr T E (E + b * k_B * T)). set (bh := alpha_max awr T E (E + b * k_B * T)).
      change (xadd (Fin bl) (xdiv (Fin ((x + - l) * (bh + - bl))) (Fin (h + - l)))
        = Fin (bl + (x - l) / (h - l) * (bh - bl))).
      rewrite xdiv_fin by lra. cbn [xadd]. f_equal. field. lra.
  Qed.

  Lemma sample_alpha_real (p q : particle XRa G) b a : 0 <= E + b * k_B * T ->
    sample_alpha t p (Fin b : num XRa) (Fin E : num XRa) (Fin T : num XRa) = Ok (a, q) ->
    exists w, 0 < w < 1 /\ a = Fin (alpha_min awr T E (E + b * k_B * T)
      + w * (alpha_max awr T E (E + b * k_B * T) - alpha_min awr T E (E + b * k_B * T))).
  Proof.
    intros Hb H. unfold sample_alpha in H. apply bind_ok in H as ([i p1] & _ & H).
    apply bind_ok in H as (gb & _ & H).
    destruct (alpha_limits t _ (Fin E : num XRa) (Fin T : num XRa)) as [a_min a_max] eqn:El.
    apply bind_ok in H as ([pa local] & _ & H). apply bind_ok in H as (F_min & _ & H).
    apply bind_ok in H as (F_max & _ & H).
    now apply sample_alpha_loop_real with (b_s := nmul XRa (nofZ XRa (sign_of (A := XRa) (Fin b))) gb)
      (a_min := a_min) (a_max := a_max) in H.
  Qed.
End Alpha.

Lemma cosine_bounds awr T E E' a : 0 < awr -> 0 < T -> 0 < E -> 0 < E' ->
  alpha_min awr T E E' < a < alpha_max awr T E E' ->
  -1 < thermal_cosine awr T E E' a < 1.
Proof.
  intros Pa PT PE PE' [H1 H2]. pose proof k_B_pos as K.
  assert (Pk : 0 < awr * k_B * T) by (repeat apply Rmult_lt_0_compat; lra).
  unfold alpha_min, alpha_max, thermal_cosine in *.
  apply (Rmult_lt_compat_r (awr * k_B * T)) in H1; auto.
  apply (Rmult_lt_compat_r (awr * k_B * T)) in H2; auto.
  assert (Qd : forall z, z / (awr * k_B * T) * (awr * k_B * T) = z) by (intros; field; repeat split; nra).
  rewrite Qd in H1, H2.
  rewrite sqrt_mult by lra.
  pose proof (sqrt_lt_R0 E PE) as S1. pose proof (sqrt_lt_R0 E' PE') as S2.
  pose proof (sqrt_sqrt E ltac:(lra)) as Q1. pose proof (sqrt_sqrt E' ltac:(lra)) as Q2.
  set (x := sqrt E) in *. set (y := sqrt E') in *.
  assert (P : 0 < 2 * (x * y)) by nra.
  replace (a * awr * k_B * T) with (a * (awr * k_B * T)) by ring.
  split.
  - apply (Rmult_lt_reg_r (2 * (x * y))); auto. unfold Rdiv. rewrite Rmult_assoc, Rinv_l by lra. nra.
  - apply (Rmult_lt_reg_r (2 * (x * y))); auto. unfold Rdiv. rewrite Rmult_assoc, Rinv_l by lra. nra.
Qed.

Lemma C42_thermal_cosine_partial_proof :
  forall (G : Rng XRa) (t : thermal XRa) (p q : particle XRa G) c d (awr E E' T : R),
  valid_rng G -> th_awr t = Fin awr -> 0 < awr ->
  p_energy p = ContinuousE (A := XRa) (Fin E) -> 0 < E -> p_direction p = pt d -> unit d ->
  p_cell p = Some c -> field_at (c_temperature c) (p_position p) = Fin T -> 0 < T ->
  th_scatter t p = Ok q ->
  p_energy q = ContinuousE (A := XRa) (Fin E') -> 0 < E' ->
  exists a d', alpha_min awr T E E' < a < alpha_max awr T E E'
    /\ p_direction q = pt d' /\ unit d'
    /\ dot d' d = thermal_cosine awr T E E' a /\ -1 < dot d' d < 1.
Proof.
  intros G t p q c d awr E E' T HG Ha Pa Ep PE Ed Ud Ec Ef PT H Eq PE'.
  pose proof k_B_pos as K. unfold th_scatter in H.
  rewrite Ep in H. cbn [get_continuous bind] in H. unfold get_cell in H. rewrite Ec in H.
  cbn [bind] in H. rewrite Ef in H. apply bind_ok in H as ([b p1] & Eb & H).
  apply bind_ok in H as ([a p2] & Ea & H). rewrite boltzmann_real, Ha in H.
  apply Ok_inj in H. subst q.
  pose proof (sample_beta_drew _ _ _ _ _ _ Eb) as D1. pose proof (sample_alpha_drew _ _ _ _ _ _ _ Ea) as D2.
  assert (Ed2 : p_direction p2 = pt d).
  { rewrite D2. cbn [p_direction set_rng]. rewrite D1. exact Ed. }
  clear D1 D2. unfold p_scatter, p_unif in Eq |- *. cbn [p_rng set_indirect] in *.
  destruct (HG (p_rng p2)) as (u & Eu & Bu). destruct (runif G (p_rng p2)) as [x s] eqn:Er.
  cbn [fst] in Eu. subst x. cbn [p_energy set_energy set_direction p_direction set_rng set_indirect] in *.
  injection Eq as Eq. rewrite Ed2.
  destruct (sample_beta_physical G t p p1 E T b PT Eb) as [->|(r & -> & Hr)].
  { exfalso. change (xadd (Fin E) (xmul (xsinf k_B) (Fin T)) = Fin E') in Eq.
    unfold xsinf in Eq. rewrite Rltb_true in Eq by lra. cbn in Eq. unfold xsinf in Eq.
    rewrite Rltb_true in Eq by lra. cbn in Eq. discriminate. }
  change (Fin (E + r * k_B * T) = Fin E') in Eq. apply Fin_inj in Eq.
  destruct (sample_alpha_real G t awr E T Ha Pa (Rlt_le _ _ PE) PT p1 p2 r a Hr Ea) as (w & Bw & ->).
  rewrite Eq in *.
  set (lo := alpha_min awr T E E') in *. set (hi := alpha_max awr T E E') in *.
  assert (Lt : lo < hi).
  { unfold lo, hi, alpha_min, alpha_max, Rdiv.
    assert (Pk : 0 < awr * k_B * T) by (repeat apply Rmult_lt_0_compat; lra).
    apply Rmult_lt_compat_r; [now apply Rinv_0_lt_compat|].
    pose proof (sqrt_lt_R0 E PE). pose proof (sqrt_lt_R0 E' PE'). nra. }
  assert (B : lo < lo + w * (hi - lo) < hi) by (split; nra).
  pose proof (cosine_bounds awr T E E' _ Pa PT PE PE' B) as Bc.
  assert (Em : ndiv XRa (nsub XRa (nadd XRa (Fin E) (nadd XRa (Fin E) (nmul XRa (nmul XRa (Fin r) (Fin k_B)) (Fin T))))
     (nmul XRa (nmul XRa (nmul XRa (Fin (lo + w * (hi - lo))) (Fin awr)) (Fin k_B)) (Fin T)))
     (nmul XRa (nofZ XRa 2) (nsqrt XRa (nmul XRa (Fin E)
        (nadd XRa (Fin E) (nmul XRa (nmul XRa (Fin r) (Fin k_B)) (Fin T))))))
     = Fin (thermal_cosine awr T E E' (lo + w * (hi - lo)))).
  { change (nadd XRa (Fin E) (nmul XRa (nmul XRa (Fin r) (Fin k_B)) (Fin T)))
      with (Fin (E + r * k_B * T)). rewrite Eq.
    change (nsqrt XRa (nmul XRa (Fin E) (Fin E'))) with (xsqrt (Fin (E * E'))).
    assert (0 < E * E') by now apply Rmult_lt_0_compat.
    rewrite xsqrt_fin by lra.
    change (nmul XRa (nofZ XRa 2) (Fin (sqrt (E * E')))) with (Fin (2 * sqrt (E * E'))).
    change (ndiv XRa) with xdiv.
    change (nsub XRa (nadd XRa (Fin E) (Fin E')) (nmul XRa (nmul XRa (nmul XRa (Fin (lo + w * (hi - lo)))
      (Fin awr)) (Fin k_B)) (Fin T))) with (Fin (E + E' - (lo + w * (hi - lo)) * awr * k_B * T)).
    rewrite xdiv_fin by (pose proof (sqrt_lt_R0 _ H); lra). reflexivity. }
  exists (lo + w * (hi - lo)). rewrite Em.
  change (nmul XRa (nmul XRa (nofZ XRa 2) c_pi) (Fin u)) with (Fin (2 * PI * u)).
  rewrite dir_rotate_pt by (auto; lra). eexists. split; [exact B|]. split; [reflexivity|].
  split; [apply rotated_unit; auto; lra|]. rewrite rotated_cosine by auto. split; [reflexivity|exact Bc].
Qed.

(** ** C69, C43: the choice of a grid point *)

Lemma grid_search l x j : increasing l -> (S j < length l)%nat -> nth j l 0 <= x < nth (S j) l 0 ->
  upper_bound (A := XRa) (Fin x) (map Fin l) = Ok (S j).
Proof.
  intros Inc Hj [H1 H2]. destruct (upper_bound_real l x Inc) as (k & -> & Hk & K1 & K2).
  f_equal. destruct (Nat.lt_trichotomy k (S j)) as [L|[E|L]]; auto.
  - specialize (K2 j ltac:(lia)). lra.
  - specialize (K1 (S j) L). lra.
Qed.

Lemma C69_energy_grid_point_proof :
  forall (G : Rng XRa) (t : thermal XRa) (p : particle XRa G) Es (E : R),
  th_Es t = map Fin Es -> increasing Es -> (N.of_nat (length Es) < 2 ^ 64)%N -> valid_rng G ->
  exists u, draw G 0 (p_rng p) = Fin u /\ 0 <= u < 1
    /\ (forall j, (S j < length Es)%nat -> nth j Es 0 <= E < nth (S j) Es 0 ->
        exists i q, choose_energy_index t p (Fin E : num XRa) = Ok (N.of_nat i, q)
          /\ (u < upper_probability (nth j Es 0) (nth (S j) Es 0) E -> i = S j)
          /\ (upper_probability (nth j Es 0) (nth (S j) Es 0) E <= u -> i = j))
    /\ (Es <> [] -> E < nth 0 Es 0 ->
        exists q, choose_energy_index t p (Fin E : num XRa) = Ok (0%N, q)).
Proof.
  intros G t p Es E Et Inc B HG. destruct (HG (p_rng p)) as (u & Eu & Bu). exists u.
  split; [exact Eu|]. split; [exact Bu|]. unfold choose_energy_index, p_unif. rewrite Et.
  destruct (runif G (p_rng p)) as [x s]. cbn [fst] in Eu. subst x. split.
  - intros j Hj Hb. rewrite (grid_search Es E j) by auto. cbn [bind].
    destruct (N.eqb_spec (N.of_nat (S j)) 0) as [Z|_]; [lia|].
    rewrite (sub64_small (N.of_nat (S j)) 1) by lia.
    replace (N.of_nat (S j) - 1)%N with (N.of_nat j) by lia.
    rewrite !vec_fin by lia. cbn [bind].
    change (ndiv XRa (nsub XRa (Fin E) (Fin (nth j Es 0)))
      (nsub XRa (Fin (nth (S j) Es 0)) (Fin (nth j Es 0))))
      with (xdiv (Fin (E - nth j Es 0)) (Fin (nth (S j) Es 0 - nth j Es 0))).
    rewrite xdiv_fin by lra. fold (upper_probability (nth j Es 0) (nth (S j) Es 0) E).
    change (nleb XRa (Fin ?a) (Fin ?b)) with (Rleb a b).
    destruct (Rleb_spec (upper_probability (nth j Es 0) (nth (S j) Es 0) E) u) as [L|L].
    + exists j. eexists. split; [reflexivity|]. split; [lra|auto].
    + exists (S j). eexists. split; [reflexivity|]. split; [auto|lra].
  - intros Ne L. destruct (upper_bound_real Es E Inc) as (k & -> & Hk & K1 & K2). cbn [bind].
    assert (k = O) as ->.
    { destruct k; auto. specialize (K1 O ltac:(lia)). lra. }
    cbn [N.of_nat N.eqb bind]. change (nleb XRa (nofZ XRa 1) (Fin u)) with (Rleb 1 u).
    rewrite Rleb_false by lra. eauto.
Qed.

Lemma sign_pos b : 0 < b -> sign_of (A := XRa) (Fin b) = 1%Z.
Proof.
  intros H. unfold sign_of. change (nltb XRa (nofZ XRa 0) (Fin b)) with (Rltb 0 b).
  change (nltb XRa (Fin b) (nofZ XRa 0)) with (Rltb b 0).
  rewrite Rltb_true, Rltb_false by lra. reflexivity.
Qed.
Lemma sign_neg b : b < 0 -> sign_of (A := XRa) (Fin b) = (-1)%Z.
Proof.
  intros H. unfold sign_of. change (nltb XRa (nofZ XRa 0) (Fin b)) with (Rltb 0 b).
  change (nltb XRa (Fin b) (nofZ XRa 0)) with (Rltb b 0).
  rewrite Rltb_false, Rltb_true by lra. reflexivity.
Qed.
Lemma sign_zero : sign_of (A := XRa) (Fin 0) = 0%Z.
Proof.
  unfold sign_of. change (nltb XRa (nofZ XRa 0) (Fin 0)) with (Rltb 0 0).
  change (nltb XRa (Fin 0) (nofZ XRa 0)) with (Rltb 0 0). now rewrite !Rltb_false by lra.
Qed.

Lemma snap_real (t : thermal XRa) bs (b E T : R) k : th_betas t = map Fin bs -> (k < length bs)%nat -> 0 < T ->
  exists sn, (sn = true <-> snapped t b E T (nth k bs 0)) /\
    beta_grid_factor t (Fin b : num XRa) (Fin E : num XRa) (Fin T : num XRa) (N.of_nat k) =
    if (sn : bool) then Ok (Fin 0 : num XRa)
    else if (N.of_nat k =? 0)%N then Ok (nofZ XRa 1)
    else bind (vec_at (th_betas t) (sub64 (N.of_nat k) 1)) (fun lo =>
         Ok (nsub XRa (Fin (Rabs b)) (ndiv XRa lo (nsub XRa (Fin (nth k bs 0)) lo)))).
Proof.
  intros Eb Hk PT. pose proof k_B_pos as K.
  assert (P : 0 < k_B * T) by now apply Rmult_lt_0_compat.
  unfold beta_grid_factor. rewrite Eb, (vec_fin bs k Hk). cbn [bind].
  change (nabs XRa (Fin b)) with (Fin (Rabs b)). rewrite boltzmann_real.
  change (ndiv XRa (nopp XRa (Fin E)) (nmul XRa (Fin k_B) (Fin T)))
    with (xdiv (Fin (- E)) (Fin (k_B * T))).
  rewrite xdiv_fin by lra. unfold snapped.
  destruct (Rtotal_order b 0) as [H|[->|H]].
  - rewrite sign_neg by auto. cbn [Z.eqb bind].
    change (nltb XRa (nopp XRa (Fin (nth k bs 0))) (Fin (- E / (k_B * T))))
      with (Rltb (- nth k bs 0) (- E / (k_B * T))).
    exists (Rltb (- nth k bs 0) (- E / (k_B * T))). split; [|reflexivity].
    assert (Q : - nth k bs 0 < - E / (k_B * T) <-> E < nth k bs 0 * k_B * T).
    { assert (Qe : - E / (k_B * T) * (k_B * T) = - E) by (field; split; nra). split; intros L.
      - apply (Rmult_lt_compat_r (k_B * T)) in L; auto. lra.
      - apply (Rmult_lt_reg_r (k_B * T)); auto. lra. }
    destruct (Rltb_spec (- nth k bs 0) (- E / (k_B * T))) as [L|L]; split; intros; try discriminate; auto.
    + right. split; auto. now apply Q.
    + destruct H0 as [[]|[_ H0]]; [lra|]. now apply Q in H0.
  - rewrite sign_zero. cbn [Z.eqb bind]. exists false. split; [|reflexivity].
    split; [discriminate|]. intros [[]|[]]; lra.
  - rewrite sign_pos by auto. cbn [Z.eqb bind].
    exists (nleb XRa (th_beta_cutoff t) (Fin (nth k bs 0))). split; [|reflexivity].
    split; [auto|]. intros [[]|[]]; [auto|lra].
Qed.

Lemma C43_beta_grid_point_partial_proof :
  forall (G : Rng XRa) (t : thermal XRa) (p : particle XRa G) bs (b E T : R) j,
  th_betas t = map Fin bs -> increasing bs -> (N.of_nat (length bs) < 2 ^ 64)%N -> valid_rng G ->
  0 < T -> (S j < length bs)%nat -> nth j bs 0 <= Rabs b < nth (S j) bs 0 ->
  let lo := nth j bs 0 in let hi := nth (S j) bs 0 in
  exists u i q, draw G 0 (p_rng p) = Fin u /\ 0 <= u < 1
    /\ choose_beta_index t p (Fin b : num XRa) (Fin E : num XRa) (Fin T : num XRa)
       = Ok (N.of_nat i, q)
    (* one of the two neighbours *)
    /\ (i = j \/ i = S j)
    (* the lower one if the upper one is out of reach *)
    /\ (snapped t b E T hi -> i = j)
    (* the probability the code uses *)
    /\ (~ snapped t b E T hi -> (u < Rabs b - lo / (hi - lo) -> i = S j)
                             /\ (Rabs b - lo / (hi - lo) <= u -> i = j))
    (* is the documented one for neighbours at distance one *)
    /\ (~ snapped t b E T hi -> hi - lo = 1 ->
          (u < upper_probability lo hi (Rabs b) -> i = S j)
          /\ (upper_probability lo hi (Rabs b) <= u -> i = j)).
Proof.
  intros G t p bs b E T j Eb Inc B HG PT Hj Hb. cbv zeta.
  destruct (HG (p_rng p)) as (u & Eu & Bu). exists u. unfold draw. cbn [advance].
  unfold choose_beta_index, p_unif. change (nabs XRa (Fin b)) with (Fin (Rabs b)).
  rewrite Eb, (grid_search bs (Rabs b) j) by auto. cbn [bind].
  destruct (snap_real t bs b E T (S j) Eb ltac:(lia) PT) as (sn & Hsn & ->).
  destruct (runif G (p_rng p)) as [x s]. cbn [fst] in *. subst x.
  destruct (N.eqb_spec (N.of_nat (S j)) 0) as [Z|_]; [lia|].
  rewrite (sub64_small (N.of_nat (S j)) 1) by lia.
  replace (N.of_nat (S j) - 1)%N with (N.of_nat j) by lia.
  rewrite Eb, vec_fin by lia. cbn [bind].
  change (ndiv XRa (Fin (nth j bs 0)) (nsub XRa (Fin (nth (S j) bs 0)) (Fin (nth j bs 0))))
    with (xdiv (Fin (nth j bs 0)) (Fin (nth (S j) bs 0 - nth j bs 0))).
  rewrite xdiv_fin by lra.
  change (nsub XRa (Fin (Rabs b)) (Fin ?a)) with (Fin (Rabs b - a)).
  destruct sn; cbn [bind]; change (nleb XRa (Fin ?a) (Fin u)) with (Rleb a u).
  - exists j. rewrite Rleb_true by lra. eexists. split; [reflexivity|]. split; [exact Bu|].
    split; [reflexivity|]. split; [auto|]. split; [auto|].
    split; intros; exfalso; apply H, Hsn; reflexivity.
  - assert (Nn : ~ snapped t b E T (nth (S j) bs 0)) by (intros Q; apply Hsn in Q; discriminate).
    set (r := Rabs b - nth j bs 0 / (nth (S j) bs 0 - nth j bs 0)).
    assert (Er : nth (S j) bs 0 - nth j bs 0 = 1 ->
                 upper_probability (nth j bs 0) (nth (S j) bs 0) (Rabs b) = r).
    { intros Q. unfold upper_probability, r. rewrite Q. field. }
    destruct (Rleb_spec r u) as [L|L].
    + exists j. eexists. split; [reflexivity|]. split; [exact Bu|]. split; [reflexivity|].
      split; [auto|]. split; [auto|]. split; [split; auto; intros; lra|].
      intros _ Q. rewrite (Er Q). split; auto; intros; lra.
    + exists (S j). eexists. split; [reflexivity|]. split; [exact Bu|]. split; [reflexivity|].
      split; [auto|]. split; [intros; contradiction|]. split; [split; auto; intros; lra|].
      intros _ Q. rewrite (Er Q). split; auto; intros; lra.
Qed.

Definition beta_table (bs : list R) (cutoff : R) : thermal XRa :=
  mkThermal (A := XRa) [] (array1 [] []) (array1 [] []) (array1 [] []) [] [] [] []
    (map Fin bs) [] (Fin cutoff) (Fin 0) (Fin 1) (Fin 10).

Lemma C43_beta_grid_point_refuted_proof :
  exists (G : Rng XRa) (t : thermal XRa) (p : particle XRa G) bs (b E T : R) j u q,
  th_betas t = map Fin bs /\ increasing bs /\ (N.of_nat (length bs) < 2 ^ 64)%N /\ valid_rng G
  /\ 0 < T /\ 0 < E /\ (S j < length bs)%nat /\ nth j bs 0 <= Rabs b < nth (S j) bs 0
  /\ ~ snapped t b E T (nth (S j) bs 0)
  /\ draw G 0 (p_rng p) = Fin u
  (* the lower neighbour should be chosen *)
  /\ upper_probability (nth j bs 0) (nth (S j) bs 0) (Rabs b) <= u
  (* but the upper one is *)
  /\ choose_beta_index t p (Fin b : num XRa) (Fin E : num XRa) (Fin T : num XRa)
     = Ok (N.of_nat (S j), q).
Proof.
  set (p := new_particle (G := half_rng) (pt (V3 0 0 0)) (pt (V3 1 0 0))
              (ContinuousE (A := XRa) (Fin 1)) neutron 1 None).
  assert (Ab : Rabs 3 = 3) by (apply Rabs_pos_eq; lra).
  destruct (C43_beta_grid_point_partial_proof half_rng (beta_table [2; 4] 10) p [2; 4] 3 1 1 0
    eq_refl ltac:(cbn; lra) ltac:(cbn; lia) (open_valid _ half_open) ltac:(lra) ltac:(cbn; lia)
    ltac:(rewrite Ab; cbn; lra)) as (u & i & q & Eu & _ & Ec & _ & _ & Hi & _).
  assert (Ns : ~ snapped (beta_table [2; 4] 10) 3 1 1 (nth 1 [2; 4] 0)).
  { intros [[_ H]|[H _]]; [|lra].
    change (Rleb 10 4 = true) in H. rewrite Rleb_false in H by lra. discriminate. }
  exists half_rng, (beta_table [2; 4] 10), p, [2; 4], 3, 1, 1, O, (1 / 2), q.
  split; [reflexivity|]. split; [cbn; lra|]. split; [cbn; lia|]. split; [exact (open_valid _ half_open)|].
  split; [lra|]. split; [lra|]. split; [cbn; lia|]. rewrite Ab. split; [cbn; lra|].
  split; [exact Ns|]. split; [reflexivity|]. split; [unfold upper_probability; cbn; lra|].
  rewrite Ec. f_equal. f_equal. f_equal. destruct (Hi Ns) as [Q _]. apply Q. rewrite Ab.
  rewrite half_draw in Eu. apply Fin_inj in Eu. cbn. lra.
Qed.

(** ** C44 *)

Lemma forall2_length {X Y} (P : X -> Y -> Prop) l l' : Forall2 P l l' -> length l = length l'.
Proof. induction 1; cbn; auto. Qed.

Lemma ends_nth n gs : forall k, (k < length gs)%nat ->
  nth_error (ends_of n gs) k = Some (n + N.of_nat (length (concat (firstn (S k) gs))))%N.
Proof.
  revert n. induction gs as [|g gs IH]; intros n [|k] Hk; cbn in Hk; try lia.
  - cbn [ends_of nth_error firstn concat]. rewrite app_nil_r. reflexivity.
  - cbn [ends_of nth_error]. rewrite IH by lia. cbn [firstn concat]. rewrite app_length.
    f_equal. cbn [firstn concat]. lia.
Qed.
Lemma ends_length n gs : length (ends_of n gs) = length gs.
Proof. revert n. induction gs; intros; cbn; auto. Qed.

Lemma concat_firstn_le (gs : list (list R)) k k' : (k <= k')%nat ->
  (length (concat (firstn k gs)) <= length (concat (firstn k' gs)))%nat.
Proof.
  revert k k'. induction gs as [|g gs IH]; intros [|k] [|k'] H; cbn; try lia.
  rewrite !app_length. specialize (IH k k' ltac:(lia)). lia.
Qed.

Lemma locate_real ps grid ends gs i : sound_partitions ps grid ends gs ->
  (i < length (concat gs))%nat ->
  exists pa g Ts local, locate_partition ps ends (N.of_nat i) = Ok (pa, N.of_nat local)
    /\ sound_partition pa g Ts /\ (local < length g)%nat.
Proof.
  intros [Se _ -> Inc Sz Ct] Hi.
  set (f := fun k => (N.of_nat i <? N.of_nat (length (concat (firstn (S k) gs))))%N).
  unfold locate_partition, upper_bound_N. rewrite ends_length.
  destruct (upper_bound_gen_spec f (fun k => match nth_error (ends_of 0 gs) k with
      | Some x => Ok (N.of_nat i <? x)%N | None => UB end) (length gs)) as (k & -> & Hk & K1 & K2).
  - intros k Hk. rewrite ends_nth by auto. reflexivity.
  - intros a b Hab Hb. unfold f. rewrite !N.ltb_lt. pose proof (concat_firstn_le gs (S a) (S b) ltac:(lia)). lia.
  - cbn [bind].
    assert (Kn : (k < length gs)%nat).
    { destruct (Nat.eq_dec k (length gs)) as [->|]; [|lia]. exfalso. destruct gs as [|g gs'].
      { cbn in Hi. lia. }
      specialize (K1 (length gs') ltac:(cbn; lia)). unfold f in K1. rewrite N.ltb_ge in K1.
      rewrite firstn_all2 in K1 by (cbn; lia). lia. }
    pose proof (K2 k ltac:(lia)) as Hf. unfold f in Hf. rewrite N.ltb_lt in Hf.
    assert (Ex : exists pa, nth_error ps k = Some pa).
    { apply forall2_length in Se. destruct (nth_error ps k) eqn:Z; eauto.
      apply nth_error_None in Z. lia. }
    destruct Ex as [pa Ex]. rewrite (vec_at_nth ps k pa Ex). cbn [bind].
    assert (Eg : exists g, nth_error gs k = Some g).
    { destruct (nth_error gs k) eqn:Z; eauto. apply nth_error_None in Z. lia. }
    destruct Eg as [g Eg].
    assert (Sp : exists Ts, sound_partition pa g Ts).
    { clear - Se Ex Eg. revert k Ex Eg. induction Se as [|x y l l' H Se IH]; intros [|k] Ex Eg; cbn in *; try discriminate.
      - injection Ex as ->. injection Eg as ->. exact H.
      - now apply (IH k). }
    destruct Sp as [Ts Sp].
    assert (Ef : length (concat (firstn (S k) gs)) = (length (concat (firstn k gs)) + length g)%nat).
    { clear - Eg. revert k Eg. induction gs as [|a gs IH]; intros [|k] Eg; cbn in Eg; try discriminate.
      - injection Eg as ->. cbn. rewrite app_nil_r. lia.
      - cbn [firstn concat]. rewrite !app_length. specialize (IH k Eg). cbn [firstn] in IH. rewrite IH. lia. }
    destruct (N.eqb_spec (N.of_nat k) 0) as [Z|Z].
    + assert (k = O) by lia. subst k. exists pa, g, Ts, i. cbn [bind].
      split; [reflexivity|]. split; auto. cbn [firstn concat] in Ef. cbn in Ef. cbn [firstn concat] in Hf. lia.
    + pose proof (K1 (k - 1)%nat ltac:(lia)) as Hp. unfold f in Hp. rewrite N.ltb_ge in Hp.
      replace (S (k - 1)) with k in Hp by lia.
      assert (Ll : (length (concat (firstn k gs)) <= length (concat gs))%nat).
      { pose proof (concat_firstn_le gs k (length gs) ltac:(lia)) as Q. now rewrite firstn_all in Q. }
      assert (Lk : (N.of_nat k < 2 ^ 64)%N) by (apply forall2_length in Se; lia).
      pose proof (ends_nth 0 gs (k - 1) ltac:(lia)) as En. replace (S (k - 1)) with k in En by lia.
      exists pa, g, Ts, (i - length (concat (firstn k gs)))%nat.
      rewrite (sub64_small (N.of_nat k) 1) by lia.
      replace (N.of_nat k - 1)%N with (N.of_nat (k - 1)) by lia.
      rewrite (vec_at_nth _ (k - 1) _ En). cbn [bind].
      rewrite sub64_small by lia. split; [|split; [exact Sp|lia]].
      f_equal. f_equal. lia.
Qed.

(** An outcome that is a value. *)
Definition is_ok {X} (o : outcome X) : Prop := exists x, o = Ok x.

Lemma evaluate_total pa g Ts i k Fs W T : partition_table pa Fs g Ts W -> increasing Ts -> Ts <> [] ->
  (i < length Fs)%nat -> (k < length g)%nat ->
  is_ok (partition_evaluate (A := XRa) pa (N.of_nat i) (N.of_nat k) (Fin T)).
Proof.
  intros P I N Hi Hk. destruct (partition_evaluate_real pa Fs g Ts W i k T P I N Hi Hk) as (v & E & _).
  now exists v.
Qed.

Lemma beta_candidate_total (t : thermal XRa) pa g Ts k E_s T F : sound_partition pa g Ts ->
  (k < length g)%nat -> is_ok (sample_beta_candidate (A := XRa) t pa (N.of_nat k) E_s (Fin T) F).
Proof.
  intros [(Fs & W & P) [I N]] Hk. pose proof P as P0.
  destruct P0 as (o & o' & o'' & c & s & gr & L1 & L2 & B1 & B2 & Ac & As & Ag & Ew).
  unfold sample_beta_candidate. rewrite (array_axis _ _ _ 0%N Fs Ac eq_refl). cbn [bind].
  destruct (upper_bound_total F (map Fin Fs : list (num XRa))) as (h & -> & Hh). cbn [bind].
  rewrite map_length in *.
  assert (Lo : N.of_nat h <> 0%N -> sub64 (N.of_nat h) 1 = N.of_nat (h - 1))
    by (intros; rewrite sub64_small by lia; lia).
  assert (Be : forall i, (i < length Fs)%nat ->
     is_ok (beta_evaluate (A := XRa) pa (N.of_nat i) (N.of_nat k) (Fin T))).
  { intros i Hi. destruct (evaluate_total pa g Ts i k Fs W T P I N Hi Hk) as [v E].
    exists v. unfold beta_evaluate. now rewrite E. }
  destruct (N.eqb_spec (N.of_nat h) 0) as [Z|Z]; [|rewrite Lo by auto; rewrite vec_fin by lia];
    cbn [bind]; (destruct (N.eqb_spec (N.of_nat h) (N.of_nat (length Fs))) as [Y|Y];
      [|rewrite vec_fin by lia]); cbn [bind];
    try (destruct (Be (h - 1)%nat ltac:(lia)) as [v ->]; cbn [bind]);
    try (destruct (Be h ltac:(lia)) as [w ->]; cbn [bind]); eexists; reflexivity.
Qed.

Lemma alpha_candidate_total (t : thermal XRa) pa g Ts k T F : sound_partition pa g Ts ->
  (k < length g)%nat -> is_ok (sample_alpha_candidate (A := XRa) t pa (N.of_nat k) (Fin T) F).
Proof.
  intros [(Fs & W & P) [I N]] Hk. pose proof P as P0.
  destruct P0 as (o & o' & o'' & c & s & gr & L1 & L2 & B1 & B2 & Ac & As & Ag & Ew).
  unfold sample_alpha_candidate. rewrite (array_axis _ _ _ 0%N Fs Ac eq_refl). cbn [bind].
  destruct (upper_bound_total F (map Fin Fs : list (num XRa))) as (h & -> & Hh). cbn [bind].
  rewrite map_length in *.
  assert (Lo : N.of_nat h <> 0%N -> sub64 (N.of_nat h) 1 = N.of_nat (h - 1))
    by (intros; rewrite sub64_small by lia; lia).
  assert (Be : forall i, (i < length Fs)%nat ->
     is_ok (partition_evaluate (A := XRa) pa (N.of_nat i) (N.of_nat k) (Fin T)))
    by (intros; now apply evaluate_total with g Ts Fs W).
  destruct (N.eqb_spec (N.of_nat h) 0) as [Z|Z]; [|rewrite Lo by auto; rewrite vec_fin by lia];
    cbn [bind]; (destruct (N.eqb_spec (N.of_nat h) (N.of_nat (length Fs))) as [Y|Y];
      [|rewrite vec_fin by lia]); cbn [bind];
    try (destruct (Be (h - 1)%nat ltac:(lia)) as [v ->]; cbn [bind]);
    try (destruct (Be h ltac:(lia)) as [w ->]; cbn [bind]); eexists; reflexivity.
Qed.

Lemma find_cdf_total (t : thermal XRa) pa g Ts k T a : sound_partition pa g Ts ->
  (k < length g)%nat -> is_ok (find_cdf (A := XRa) t pa (N.of_nat k) (Fin T) a).
Proof.
  intros [(Fs & W & P) [I N]] Hk. pose proof P as P0.
  destruct P0 as (o & o' & o'' & c & s & gr & L1 & L2 & B1 & B2 & Ac & As & Ag & Ew).
  unfold find_cdf. rewrite (array_axis _ _ _ 0%N Fs Ac eq_refl). cbn [bind].
  rewrite map_length in *.
  assert (Be : forall i, (i < length Fs)%nat ->
     is_ok (partition_evaluate (A := XRa) pa (N.of_nat i) (N.of_nat k) (Fin T)))
    by (intros; now apply evaluate_total with g Ts Fs W).
  match goal with |- context [upper_bound_gen ?f ?n] =>
    destruct (upper_bound_loop_total f n 0 n) as (h & Eh & Hh) end; auto.
  { intros i Hi. destruct (Be i ltac:(lia)) as [v ->]. cbn [bind]. eauto. }
  unfold upper_bound_gen. rewrite Eh. cbn [bind].
  assert (Lo : N.of_nat h <> 0%N -> sub64 (N.of_nat h) 1 = N.of_nat (h - 1))
    by (intros; rewrite sub64_small by lia; lia).
  destruct (N.eqb_spec (N.of_nat h) 0) as [Z|Z]; [|rewrite Lo by auto; rewrite vec_fin by lia];
    cbn [bind]; (destruct (N.eqb_spec (N.of_nat h) (N.of_nat (length Fs))) as [Y|Y];
      [|rewrite vec_fin by lia]); cbn [bind];
    try (destruct (Be (h - 1)%nat ltac:(lia)) as [v ->]; cbn [bind]);
    try (destruct (Be h ltac:(lia)) as [w ->]; cbn [bind]); eexists; reflexivity.
Qed.

Lemma beta_loop_total (G : Rng XRa) (t : thermal XRa) pa g Ts k E E_s T n : sound_partition pa g Ts ->
  (k < length g)%nat -> forall p : particle XRa G,
  is_ok (sample_beta_loop (A := XRa) n t pa (N.of_nat k) E E_s (Fin T) p)
  \/ sample_beta_loop (A := XRa) n t pa (N.of_nat k) E E_s (Fin T) p
     = Throw "Number of thermal scattering beta resamples exceeded limit: 10".
Proof.
  intros S Hk. induction n as [|n IH]; intros p; cbn [sample_beta_loop]; [now right|].
  destruct (p_unif p) as [F p1].
  destruct (beta_candidate_total t pa g Ts k E_s T F S Hk) as [b ->]. cbn [bind].
  destruct (nleb XRa _ b); [left; eexists; reflexivity|apply IH].
Qed.

Lemma alpha_loop_total (G : Rng XRa) (t : thermal XRa) pa g Ts k b E T a_min a_max F_min F_max n :
  sound_partition pa g Ts -> (k < length g)%nat -> forall p : particle XRa G,
  is_ok (sample_alpha_loop (A := XRa) n t pa (N.of_nat k) b E (Fin T) a_min a_max F_min F_max p)
  \/ sample_alpha_loop (A := XRa) n t pa (N.of_nat k) b E (Fin T) a_min a_max F_min F_max p
     = Throw "Number of thermal scattering alpha resamples exceeded limit: 10".
Proof.
  intros S Hk. induction n as [|n IH]; intros p; cbn [sample_alpha_loop]; [now right|].
  destruct (p_unif p) as [u p1].
  match goal with |- context [sample_alpha_candidate t pa _ _ ?F] =>
    destruct (alpha_candidate_total t pa g Ts k T F S Hk) as [a ->] end. cbn [bind].
  destruct (nltb XRa a_min a && nltb XRa a a_max)%bool; [|apply IH].
  destruct (alpha_limits t b E (Fin T : num XRa)). left; eexists; reflexivity.
Qed.




Lemma C44_existing_entries_partial_proof :
  forall (G : Rng XRa) (t : thermal XRa) (p : particle XRa G) Egrids bgrids (E T : R),
  valid_rng G -> 0 < T ->
  sound_partitions (th_beta_partitions t) (th_Es t) (th_beta_ends t) Egrids ->
  sound_partitions (th_alpha_partitions t) (th_betas t) (th_alpha_ends t) bgrids ->
  concat Egrids <> [] -> concat bgrids <> [] ->
  (* the energy transfer: for energies below the last energy of its tables *)
  (E < last (concat Egrids) 0 ->
     (exists b q, sample_beta t p (Fin E : num XRa) (Fin T : num XRa) = Ok (b, q))
     \/ sample_beta t p (Fin E : num XRa) (Fin T : num XRa)
        = Throw "Number of thermal scattering beta resamples exceeded limit: 10")
  (* the momentum transfer: for transfers below the last beta of its tables, and if
     below the first one then only if that is within reach *)
  /\ (forall b, Rabs b < last (concat bgrids) 0 ->
      (Rabs b < nth 0 (concat bgrids) 0 -> ~ snapped t b E T (nth 0 (concat bgrids) 0)) ->
      (exists a q, sample_alpha t p (Fin b : num XRa) (Fin E : num XRa) (Fin T : num XRa) = Ok (a, q))
      \/ sample_alpha t p (Fin b : num XRa) (Fin E : num XRa) (Fin T : num XRa)
         = Throw "Number of thermal scattering alpha resamples exceeded limit: 10").
Proof.
  intros G t p Eg bg E T HG PT SE Sb NE Nb. split.
  - intros HE. unfold sample_beta.
    destruct (upper_bound_real (concat Eg) E (sp_increasing _ _ _ _ SE)) as (k & Ek & Hk & K1 & K2).
    assert (Kn : (k < length (concat Eg))%nat).
    { destruct (Nat.eq_dec k (length (concat Eg))) as [->|]; [|lia]. exfalso.
      rewrite last_nth in HE. destruct (concat Eg) as [|x l] eqn:Z; [congruence|].
      specialize (K1 (length (x :: l) - 1)%nat ltac:(cbn; lia)). lra. }
    assert (C : exists i q, choose_energy_index t p (Fin E : num XRa) = Ok (N.of_nat i, q)
                            /\ (i < length (concat Eg))%nat).
    { destruct (C69_energy_grid_point_proof G t p (concat Eg) E (sp_grid _ _ _ _ SE)
        (sp_increasing _ _ _ _ SE) (sp_size _ _ _ _ SE) HG) as (u & _ & _ & H1 & H2).
      destruct k as [|j].
      - destruct (H2 NE (K2 O ltac:(lia))) as (q & E0). exists O, q. split; auto.
      - destruct (H1 j Kn (conj (K1 j ltac:(lia)) (K2 (S j) ltac:(lia)))) as (i & q & E0 & C1 & C2).
        exists i, q. split; auto.
        destruct (Rlt_dec u (upper_probability (nth j (concat Eg) 0) (nth (S j) (concat Eg) 0) E)) as [L|L].
        + rewrite (C1 L). lia.
        + rewrite (C2 ltac:(lra)). lia. }
    destruct C as (i & q & -> & Hi). cbn [bind]. rewrite (sp_grid _ _ _ _ SE), vec_fin by auto.
    cbn [bind]. destruct (locate_real _ _ _ _ i SE Hi) as (pa & g & Ts & local & -> & Sp & Hl).
    cbn [bind].
    match goal with |- context [sample_beta_loop ?n t pa ?l ?e ?es (Fin ?T0) q] =>
      destruct (beta_loop_total G t pa g Ts local e es T0 n Sp Hl q) as [[[b q'] Eb]|Eb] end.
    + left. exists b, q'. exact Eb.
    + right. exact Eb.
  - intros b Hb Hs. unfold sample_alpha.
    destruct (upper_bound_real (concat bg) (Rabs b) (sp_increasing _ _ _ _ Sb)) as (k & Ek & Hk & K1 & K2).
    assert (Kn : (k < length (concat bg))%nat).
    { destruct (Nat.eq_dec k (length (concat bg))) as [->|]; [|lia]. exfalso.
      rewrite last_nth in Hb. destruct (concat bg) as [|x l] eqn:Z; [congruence|].
      specialize (K1 (length (x :: l) - 1)%nat ltac:(cbn; lia)). lra. }
    assert (C : exists i q, choose_beta_index t p (Fin b : num XRa) (Fin E : num XRa) (Fin T : num XRa)
                  = Ok (N.of_nat i, q) /\ (i < length (concat bg))%nat).
    { destruct k as [|j].
      - unfold choose_beta_index. change (nabs XRa (Fin b)) with (Fin (Rabs b)).
        rewrite (sp_grid _ _ _ _ Sb), Ek. cbn [bind].
        destruct (snap_real t (concat bg) b E T 0 (sp_grid _ _ _ _ Sb) Kn PT) as (sn & Hsn & ->).
        specialize (K2 O ltac:(lia)). specialize (Hs K2).
        destruct sn; [exfalso; apply Hs, Hsn; reflexivity|]. cbn [N.of_nat N.eqb bind].
        unfold p_unif. destruct (HG (p_rng p)) as (u & Eu & Bu). destruct (runif G (p_rng p)) as [x s].
        cbn [fst] in Eu. subst x. change (nleb XRa (nofZ XRa 1) (Fin u)) with (Rleb 1 u).
        rewrite Rleb_false by lra. exists O. eexists. split; [reflexivity|exact Kn].
      - destruct (C43_beta_grid_point_partial_proof G t p (concat bg) b E T j (sp_grid _ _ _ _ Sb)
          (sp_increasing _ _ _ _ Sb) (sp_size _ _ _ _ Sb) HG PT Kn
          (conj (K1 j ltac:(lia)) (K2 (S j) ltac:(lia)))) as (u & i & q & _ & _ & E0 & Hi & _).
        exists i, q. split; auto. destruct Hi as [->| ->]; lia. }
    destruct C as (i & q & -> & Hi). cbn [bind]. rewrite (sp_grid _ _ _ _ Sb), vec_fin by auto.
    cbn [bind]. destruct (alpha_limits t _ (Fin E : num XRa) (Fin T : num XRa)) as [a_min a_max].
    destruct (locate_real _ _ _ _ i Sb Hi) as (pa & g & Ts & local & -> & Sp & Hl). cbn [bind].
    destruct (find_cdf_total t pa g Ts local T a_min Sp Hl) as [F_min ->]. cbn [bind].
    destruct (find_cdf_total t pa g Ts local T a_max Sp Hl) as [F_max ->]. cbn [bind].
    match goal with |- context [sample_alpha_loop ?n t pa ?l ?b0 ?e (Fin ?T0) ?x1 ?x2 ?x3 ?x4 q] =>
      destruct (alpha_loop_total G t pa g Ts local b0 e T0 x1 x2 x3 x4 n Sp Hl q) as [[[a q'] Ea]|Ea] end.
    + left. exists a, q'. exact Ea.
    + right. exact Ea.
Qed.

(** ** Small tables

    Temperatures are such that k_B T = 1. Every table holds one number. *)
Definition T_one : R := / k_B.
Definition toy_partition (grid : list R) (c : R) : partition XRa :=
  mkPartition (A := XRa) (array2 [1 / 2] [0] [1]) (array1 [0] [c])
    (array3 grid [T_one; 2 * T_one] [0] (repeat 1 (length grid * 2))).
Definition toy (b : R) (betas : list R) : thermal XRa :=
  mkThermal (A := XRa) [] (array1 [] []) (array1 [] []) (array1 [] [])
    [toy_partition [1 / 2; 2] b] (map Fin (concat [[1 / 2; 2]])) (ends_of 0 [[1 / 2; 2]])
    [toy_partition betas 1] (map Fin (concat [betas])) (ends_of 0 [betas])
    (Fin 10) (Fin 3) (Fin 1) (Fin 2).

Lemma nth_repeat_lt (a : R) m n d : (n < m)%nat -> nth n (repeat a m) d = a.
Proof. revert n. induction m; intros [|n] H; cbn; auto; try lia. apply IHm. lia. Qed.

Lemma T_one_pos : 0 < T_one.
Proof. apply Rinv_0_lt_compat, k_B_pos. Qed.
Lemma kT_one : k_B * T_one = 1.
Proof. apply Rinv_r. pose proof k_B_pos. lra. Qed.

Lemma toy_table grid c : partition_table (toy_partition grid c) [1 / 2] grid [T_one; 2 * T_one]
  (fun _ _ _ => c).
Proof.
  exists [0], [0], [0]. do 3 eexists. split; [reflexivity|]. split; [reflexivity|].
  split; [reflexivity|]. split; [reflexivity|].
  split; [apply array_make; [discriminate|reflexivity]|].
  split; [apply array_make; [discriminate|reflexivity]|].
  split; [apply array_make; [discriminate|]|].
  { rewrite repeat_length. unfold shape_of. cbn [map length volume]. lia. }
  intros i k j Hi Hk Hj. cbn [length] in *. assert (i = O) as -> by lia.
  rewrite map_indices. cbn [length seq map Rsum N.of_nat]. unfold shape_of. cbn [map length].
  set (x := nth _ (repeat 1 _) 0). assert (Ex : x = 1).
  { unfold x. apply nth_repeat_lt. cbn [row_major volume length]. lia. }
  rewrite Ex. cbn. lra.
Qed.

Lemma toy_temperatures : increasing [T_one; 2 * T_one] /\ [T_one; 2 * T_one] <> [].
Proof. pose proof T_one_pos. split; [cbn; lra|discriminate]. Qed.

Lemma toy_sound grid c : increasing grid -> (N.of_nat (length grid) < 2 ^ 64)%N ->
  sound_partitions [toy_partition grid c] (map Fin (concat [grid])) (ends_of 0 [grid]) [grid].
Proof.
  intros I B. split; auto; [|now cbn; rewrite app_nil_r|now cbn; rewrite app_nil_r|reflexivity].
  constructor; [|constructor]. exists [T_one; 2 * T_one]. split.
  - do 2 eexists. apply toy_table.
  - exact toy_temperatures.
Qed.

Lemma toy_evaluate grid c k : (k < length grid)%nat ->
  partition_evaluate (A := XRa) (toy_partition grid c) 0 (N.of_nat k) (Fin T_one) = Ok (Fin c).
Proof.
  intros Hk. pose proof T_one_pos. destruct toy_temperatures as [I N].
  destruct (partition_evaluate_real (toy_partition grid c) [1 / 2] grid [T_one; 2 * T_one] _ 0 k
    T_one (toy_table grid c) I N ltac:(cbn; lia) Hk) as (v & E & H1 & _).
  change (N.of_nat 0) with 0%N in E. rewrite E. f_equal.
  rewrite (H1 O ltac:(cbn; lia) ltac:(cbn; lra)). f_equal. unfold chord. cbn. field. lra.
Qed.

Lemma toy_locate grid c k : (k < length grid)%nat ->
  locate_partition [toy_partition grid c] (ends_of 0 [grid]) (N.of_nat k)
  = Ok (toy_partition grid c, N.of_nat k).
Proof.
  intros H. unfold locate_partition, upper_bound_N. cbn. 
  destruct (N.ltb_spec (N.of_nat k) (N.of_nat (length grid))); [reflexivity|lia].
Qed.

Definition toy_cell : cell XRa := mkCell (A := XRa) 0 "" [] None (constant_field (Fin T_one : num XRa)).
Definition toy_particle : particle XRa half_rng :=
  new_particle (G := half_rng) (pt (V3 0 0 0)) (pt (V3 1 0 0))
    (ContinuousE (A := XRa) (Fin 1)) neutron 1 (Some toy_cell).

Lemma half_unif (p : particle XRa half_rng) : p_unif p = (Fin (1 / 2), p).
Proof. destruct p. cbn. destruct p_rng. reflexivity. Qed.

Lemma toy_beta b betas (p : particle XRa half_rng) : -1 <= b ->
  sample_beta (toy b betas) p (Fin 1 : num XRa) (Fin T_one : num XRa) = Ok (Fin b, p).
Proof.
  intros Hb. pose proof T_one_pos as PT. pose proof kT_one as KT. unfold sample_beta.
  assert (Ec : choose_energy_index (toy b betas) p (Fin 1 : num XRa) = Ok (0%N, p)).
  { unfold choose_energy_index. cbn [toy th_Es concat app].
    rewrite (grid_search [1 / 2; 2] 1 0) by (cbn; try lia; lra). cbn [bind].
    rewrite half_unif. change (sub64 (N.of_nat 1) 1) with 0%N.
    change (vec_at (X := num XRa) (map Fin [1 / 2; 2]) 0) with (Ok (Fin (1 / 2) : num XRa)).
    change (vec_at (X := num XRa) (map Fin [1 / 2; 2]) (N.of_nat 1)) with (Ok (Fin 2 : num XRa)).
    cbn [N.of_nat N.eqb bind Pos.of_succ_nat].
    change (ndiv XRa (nsub XRa (Fin 1) (Fin (1 / 2))) (nsub XRa (Fin 2) (Fin (1 / 2))))
      with (xdiv (Fin (1 - 1 / 2)) (Fin (2 - 1 / 2))).
    rewrite xdiv_fin by lra.
    match goal with |- context [nleb XRa (Fin ?a) (Fin ?b)] => change (nleb XRa (Fin a) (Fin b)) with (Rleb a b) end.
    rewrite Rleb_true by lra. reflexivity. }
  rewrite Ec. cbn [bind toy th_Es concat app].
  change (vec_at (X := num XRa) (map Fin [1 / 2; 2]) 0) with (Ok (Fin (1 / 2) : num XRa)).
  cbn [bind th_beta_partitions th_beta_ends].
  pose proof (toy_locate [1 / 2; 2] b 0 ltac:(cbn; lia)) as El. change (N.of_nat 0) with 0%N in El.
  change (th_beta_partitions (toy b betas)) with [toy_partition [1 / 2; 2] b].
  change (th_beta_ends (toy b betas)) with (ends_of 0 [[1 / 2; 2]]). rewrite El. cbn [bind].
  unfold beta_resample_limit. cbn [sample_beta_loop]. rewrite half_unif.
  unfold sample_beta_candidate.
  change (ds_axis (pa_cdf (toy_partition [1 / 2; 2] b)) 0) with (Ok (map Fin [1 / 2] : list (num XRa))).
  cbn [bind].
  assert (Eu : upper_bound (A := XRa) (Fin (1 / 2)) (map Fin [1 / 2]) = Ok 1%nat).
  { destruct (upper_bound_real [1 / 2] (1 / 2) ltac:(cbn; lra)) as (k & -> & Hk & K1 & K2). f_equal.
    cbn in Hk. destruct k as [|[|k]]; auto; try lia. specialize (K2 O ltac:(cbn; lia)). cbn in K2. lra. }
  rewrite Eu. cbn [bind]. rewrite map_length. cbn [length]. change (N.of_nat 1 =? 0)%N with false. 
  change (N.of_nat 1 =? N.of_nat 1)%N with true. change (sub64 (N.of_nat 1) 1) with (N.of_nat 0).
  rewrite (vec_fin [1 / 2] 0) by (cbn; lia). cbn [bind]. unfold beta_evaluate.
  pose proof (toy_evaluate [1 / 2; 2] b 0 ltac:(cbn; lia)) as Ee. change (N.of_nat 0) with 0%N in Ee |- *.
  rewrite Ee. cbn [noexcept bind].
  cbn [th_beta_cutoff toy].
  match goal with |- context [nleb XRa ?x ?y] => assert (Ey : y = Fin b) end.
  { change (xadd (Fin b) (xmul (xdiv (Fin (1 / 2 + - (1 / 2))) (Fin (1 + - (1 / 2)))) (Fin (10 + - b))) = Fin b).
    rewrite xdiv_fin by lra. cbn. f_equal. field. }
  rewrite Ey, boltzmann_real.
  change (ndiv XRa (nopp XRa (Fin 1)) (nmul XRa (Fin k_B) (Fin T_one)))
    with (xdiv (Fin (-1)) (Fin (k_B * T_one))). rewrite KT, xdiv_fin by lra.
  match goal with |- context [nleb XRa (Fin ?a) (Fin ?b)] => change (nleb XRa (Fin a) (Fin b)) with (Rleb a b) end.
  rewrite Rleb_true by lra. reflexivity.
Qed.

Lemma C44_existing_entries_refuted_proof :
  exists (G : Rng XRa) (t : thermal XRa) (p : particle XRa G) c Egrids bgrids (E T : R) ev awr,
  valid_rng G
  /\ sound_partitions (th_beta_partitions t) (th_Es t) (th_beta_ends t) Egrids
  /\ sound_partitions (th_alpha_partitions t) (th_betas t) (th_alpha_ends t) bgrids
  /\ concat Egrids <> [] /\ concat bgrids <> []
  /\ p_energy p = ContinuousE (A := XRa) (Fin E) /\ p_type p = neutron
  /\ nltb XRa (Fin E) (th_cutoff_energy t) = true /\ 0 < E < last (concat Egrids) 0
  /\ p_cell p = Some c /\ field_at (c_temperature c) (p_position p) = Fin T /\ 0 < T
  (* an index outside the tables is used, and the exception ends the program *)
  /\ th_scatter t p = Throw "vector::_M_range_check"
  /\ cr_interact 1 (CScatter ev (Some t) awr) p = Terminate.
Proof.
  exists half_rng, (toy 2 [1]), toy_particle, toy_cell, [[1 / 2; 2]], [[1]], 1, T_one,
    (mkEval (A := XRa) [] (Fin 0)), (Fin 1).
  split; [exact (open_valid _ half_open)|]. split; [apply toy_sound; [cbn; lra|reflexivity]|].
  split; [apply toy_sound; [cbn; lra|reflexivity]|]. split; [discriminate|]. split; [discriminate|].
  split; [reflexivity|]. split; [reflexivity|].
  split; [change (Rltb 1 2 = true); apply Rltb_true; lra|]. split; [cbn; lra|].
  split; [reflexivity|]. split; [reflexivity|]. split; [exact T_one_pos|].
  assert (Et : forall p : particle XRa half_rng, p_energy p = ContinuousE (A := XRa) (Fin 1) ->
     p_cell p = Some toy_cell ->
     th_scatter (toy 2 [1]) p = Throw "vector::_M_range_check").
  { intros p Ep Ec. unfold th_scatter. rewrite Ep. cbn [get_continuous bind]. unfold get_cell.
    rewrite Ec. cbn [bind].
    change (field_at (c_temperature toy_cell) (p_position p)) with (Fin T_one : num XRa).
    rewrite toy_beta by lra. cbn [bind]. unfold sample_alpha, choose_beta_index.
    assert (Eu : upper_bound (A := XRa) (nabs XRa (Fin 2)) (th_betas (toy 2 [1])) = Ok 1%nat).
    { change (nabs XRa (Fin 2)) with (Fin (Rabs 2)). rewrite Rabs_pos_eq by lra.
      change (th_betas (toy 2 [1])) with (map Fin [1]).
      destruct (upper_bound_real [1] 2 ltac:(cbn; lra)) as (k & -> & Hk & K1 & K2). f_equal.
      cbn in Hk. destruct k as [|[|k]]; auto; try lia. specialize (K2 O ltac:(cbn; lia)). cbn in K2. lra. }
    rewrite Eu. cbn [bind]. unfold beta_grid_factor. rewrite sign_pos by lra. reflexivity. }
  split; [apply Et; reflexivity|]. unfold cr_interact.
  assert (Ea : tsl_applies (Some (toy 2 [1])) toy_particle = Ok true).
  { unfold tsl_applies, th_is_valid. change (get_continuous (p_energy toy_particle)) with (Ok (Fin 1 : num XRa)).
    cbn [bind noexcept]. change (nltb XRa (Fin 1) (th_cutoff_energy (toy 2 [1]))) with (Rltb 1 2).
    rewrite Rltb_true by lra. reflexivity. }
  assert (Eb : tsl_applies (Some (toy 2 [1])) (set_event toy_particle scatter) = Ok true) by exact Ea.
  try rewrite Ea. try rewrite Eb. cbn [bind]. rewrite Et by reflexivity. reflexivity.
Qed.

Lemma toy_F : vec_at (X := num XRa) (map Fin [1 / 2]) 0 = Ok (Fin (1 / 2)).
Proof. reflexivity. Qed.

(** The momentum transfer in the small tables. *)
Lemma toy_alpha v b betas k s (p : particle XRa half_rng) :
  choose_beta_index (toy v betas) p (Fin b : num XRa) (Fin 1 : num XRa) (Fin T_one : num XRa)
    = Ok (N.of_nat k, p) ->
  (k < length betas)%nat -> 2 / 3 <= s <= 1 ->
  1 + IZR (sign_of (A := XRa) (Fin b)) * nth k betas 0 = s * s ->
  exists a, sample_alpha (toy v betas) p (Fin b : num XRa) (Fin 1 : num XRa) (Fin T_one : num XRa)
            = Ok (a, p).
Proof.
  intros Ec Hk Hs Es. pose proof T_one_pos as PT. pose proof kT_one as KT. unfold sample_alpha.
  rewrite Ec. cbn [bind].
  change (th_betas (toy v betas)) with (map Fin (betas ++ [])). rewrite app_nil_r.
  rewrite vec_fin by auto. cbn [bind].
  set (z := sign_of (A := XRa) (Fin b)) in *.
  change (nmul XRa (nofZ XRa z) (Fin (nth k betas 0))) with (Fin (IZR z * nth k betas 0)).
  assert (Q : 1 + IZR z * nth k betas 0 * k_B * T_one = s * s) by (rewrite Rmult_assoc, KT; lra).
  assert (Al : alpha_limits (A := XRa) (toy v betas) (Fin (IZR z * nth k betas 0)) (Fin 1) (Fin T_one)
    = (Fin ((1 - s) ^ 2), Fin ((1 + s) ^ 2))).
  { rewrite (alpha_limits_real (toy v betas) 1 1 T_one eq_refl) by (try lra; rewrite Q; nra).
    unfold alpha_min, alpha_max. rewrite Q, sqrt_square, sqrt_1 by lra.
    replace (1 * k_B * T_one) with 1 by lra. f_equal; f_equal; field. }
  rewrite Al.
  change (th_alpha_partitions (toy v betas)) with [toy_partition betas 1].
  change (th_alpha_ends (toy v betas)) with (ends_of 0 [betas]).
  rewrite (toy_locate betas 1 k Hk). cbn [bind].
  assert (L0 : 0 <= (1 - s) ^ 2 < 1 / 2) by (split; [apply pow2_ge_0|nra]).
  assert (H0 : 1 <= (1 + s) ^ 2) by nra.
  assert (H3 : 3 <= 2 * (1 - s) ^ 2 + (1 + s) ^ 2) by nra.
  assert (Hh : (1 - s) ^ 2 < (1 + s) ^ 2) by nra.
  set (l := (1 - s) ^ 2) in *. set (h := (1 + s) ^ 2) in *. clearbody l h.
  assert (E1 : find_cdf (A := XRa) (toy v betas) (toy_partition betas 1) (N.of_nat k) (Fin T_one) (Fin l)
    = Ok (Fin (l / 2))).
  { unfold find_cdf. change (ds_axis (pa_cdf (toy_partition betas 1)) 0)
      with (Ok (map Fin [1 / 2] : list (num XRa))). cbn [bind]. rewrite map_length.
    cbn [length upper_bound_gen upper_bound_loop Nat.eqb Nat.div2 Nat.add].
    change (N.of_nat 0) with 0%N. rewrite (toy_evaluate betas 1 k Hk). cbn [bind].
    change (nltb XRa (Fin l) (Fin 1)) with (Rltb l 1). rewrite Rltb_true by lra.
    cbn [upper_bound_loop Nat.eqb bind N.of_nat N.eqb Pos.of_succ_nat].
    rewrite toy_F. cbn [bind].
    rewrite (toy_evaluate betas 1 k Hk). cbn [bind]. f_equal.
    change (xadd (Fin 0) (xdiv (Fin ((l + - 0) * (1 / 2 + - 0))) (Fin (1 + - 0))) = Fin (l / 2)).
    rewrite xdiv_fin by lra. cbn. f_equal. field. }
  assert (E2 : find_cdf (A := XRa) (toy v betas) (toy_partition betas 1) (N.of_nat k) (Fin T_one) (Fin h)
    = Ok (Fin (1 / 2 + (h - 1) / 4))).
  { unfold find_cdf. change (ds_axis (pa_cdf (toy_partition betas 1)) 0)
      with (Ok (map Fin [1 / 2] : list (num XRa))). cbn [bind]. rewrite map_length.
    cbn [length upper_bound_gen upper_bound_loop Nat.eqb Nat.div2 Nat.add].
    change (N.of_nat 0) with 0%N. rewrite (toy_evaluate betas 1 k Hk). cbn [bind].
    change (nltb XRa (Fin h) (Fin 1)) with (Rltb h 1). rewrite Rltb_false by lra.
    cbn [upper_bound_loop Nat.eqb Nat.sub bind N.of_nat N.eqb Pos.of_succ_nat Pos.eqb].
    change (sub64 1 1) with 0%N. rewrite toy_F. cbn [bind].
    rewrite (toy_evaluate betas 1 k Hk). cbn [bind]. f_equal.
    change (xadd (Fin (1 / 2)) (xdiv (Fin ((h + - 1) * (1 + - (1 / 2)))) (Fin (3 + - 1)))
      = Fin (1 / 2 + (h - 1) / 4)).
    rewrite xdiv_fin by lra. cbn. f_equal. field. }
  rewrite E1. cbn [bind]. rewrite E2. cbn [bind].
  unfold alpha_resample_limit. cbn [sample_alpha_loop]. rewrite half_unif.
  set (F := l / 2 + 1 / 2 * (1 / 2 + (h - 1) / 4 - l / 2)).
  assert (EF : nadd XRa (Fin (l / 2)) (nmul XRa (Fin (1 / 2)) (nsub XRa (Fin (1 / 2 + (h - 1) / 4)) (Fin (l / 2))))
    = Fin F) by reflexivity.
  rewrite EF. assert (HF : 1 / 2 <= F) by (unfold F; lra).
  assert (E3 : sample_alpha_candidate (A := XRa) (toy v betas) (toy_partition betas 1) (N.of_nat k)
    (Fin T_one) (Fin F) = Ok (Fin (1 + 4 * (F - 1 / 2)))).
  { unfold sample_alpha_candidate. change (ds_axis (pa_cdf (toy_partition betas 1)) 0)
      with (Ok (map Fin [1 / 2] : list (num XRa))). cbn [bind].
    assert (Eu : upper_bound (A := XRa) (Fin F) (map Fin [1 / 2]) = Ok 1%nat).
    { destruct (upper_bound_real [1 / 2] F ltac:(cbn; lra)) as (i & -> & Hi & K1 & K2). f_equal.
      cbn in Hi. destruct i as [|[|i]]; auto; try lia. specialize (K2 O ltac:(cbn; lia)). cbn in K2. lra. }
    rewrite Eu. cbn [bind]. rewrite map_length. cbn [length N.of_nat N.eqb Pos.of_succ_nat Pos.eqb].
    change (sub64 1 1) with 0%N. rewrite toy_F. cbn [bind].
    rewrite (toy_evaluate betas 1 k Hk). cbn [bind]. f_equal.
    change (xadd (Fin 1) (xmul (xdiv (Fin (F + - (1 / 2))) (Fin (1 + - (1 / 2)))) (Fin (3 + - 1)))
      = Fin (1 + 4 * (F - 1 / 2))).
    rewrite xdiv_fin by lra. cbn. f_equal. field. }
  rewrite E3. cbn [bind].
  change (nltb XRa (Fin l) (Fin (1 + 4 * (F - 1 / 2)))) with (Rltb l (1 + 4 * (F - 1 / 2))).
  change (nltb XRa (Fin (1 + 4 * (F - 1 / 2))) (Fin h)) with (Rltb (1 + 4 * (F - 1 / 2)) h).
  rewrite !Rltb_true by (unfold F; lra). cbn [andb].
  destruct (alpha_limits (toy v betas) (Fin b : num XRa) (Fin 1 : num XRa) (Fin T_one : num XRa)).
  eexists. reflexivity.
Qed.

Lemma toy_scatter_zero :
  exists mu q, th_scatter (toy 0 [0; 1]) toy_particle = Ok q
    /\ q = p_scatter toy_particle mu (ContinuousE (A := XRa) (Fin (1 + 0 * k_B * T_one))).
Proof.
  unfold th_scatter. change (get_continuous (p_energy toy_particle)) with (Ok (Fin 1 : num XRa)).
  change (get_cell toy_particle) with (Ok toy_cell). cbn [bind].
  change (field_at (c_temperature toy_cell) (p_position toy_particle)) with (Fin T_one : num XRa).
  rewrite toy_beta by lra. cbn [bind].
  destruct (C43_beta_grid_point_partial_proof half_rng (toy 0 [0; 1]) toy_particle [0; 1] 0 1 T_one 0
    eq_refl ltac:(cbn; lra) ltac:(cbn; lia) (open_valid _ half_open) T_one_pos ltac:(cbn; lia)
    ltac:(rewrite Rabs_R0; cbn; lra)) as (u & i & q & Eu & _ & Ec & _ & _ & H & _).
  rewrite half_draw in Eu. apply Fin_inj in Eu. subst u.
  assert (i = O) as ->.
  { apply H; [|rewrite Rabs_R0; cbn; lra]. intros [[]|[]]; lra. }
  assert (q = toy_particle) as ->.
  { unfold choose_beta_index in Ec. apply bind_ok in Ec as (x & _ & Ec). apply bind_ok in Ec as (y & _ & Ec).
    rewrite half_unif in Ec. congruence. }
  destruct (toy_alpha 0 0 [0; 1] 0 1 toy_particle Ec) as (a & Ea);
    [cbn; lia|lra|rewrite sign_zero; cbn; lra|].
  rewrite Ea. cbn [bind]. rewrite boltzmann_real. do 2 eexists. split; reflexivity.
Qed.

Lemma C42_zero_energy_refuted_proof :
  exists (G : Rng XRa) (t : thermal XRa) (p q : particle XRa G) c d (awr E T : R),
  valid_rng G /\ th_awr t = Fin awr /\ 0 < awr
  /\ p_energy p = ContinuousE (A := XRa) (Fin E) /\ 0 < E /\ p_direction p = pt d /\ unit d
  /\ p_cell p = Some c /\ field_at (c_temperature c) (p_position p) = Fin T /\ 0 < T
  (* a neutron may lose all its energy, which leaves it without a direction *)
  /\ th_scatter t p = Ok q /\ p_energy q = ContinuousE (A := XRa) (Fin 0)
  /\ ~ exists d', p_direction q = pt d'.
Proof.
  set (bs := [7 / 16; 2]). pose proof kT_one as KT.
  assert (R1 : Rabs (-1) = 1) by (rewrite Rabs_left by lra; lra).
  destruct (C43_beta_grid_point_partial_proof half_rng (toy (-1) bs) toy_particle bs (-1) 1 T_one 0
    eq_refl ltac:(cbn; lra) ltac:(cbn; lia) (open_valid _ half_open) T_one_pos ltac:(cbn; lia)
    ltac:(rewrite R1; cbn; lra)) as (u & i & q0 & Eu & _ & Ec & _ & H & _ & _).
  assert (i = O) as ->.
  { apply H. right. split; [lra|]. cbn. rewrite Rmult_assoc, KT. lra. }
  assert (q0 = toy_particle) as ->.
  { unfold choose_beta_index in Ec. apply bind_ok in Ec as (x & _ & Ec). apply bind_ok in Ec as (y & _ & Ec).
    rewrite half_unif in Ec. congruence. }
  destruct (toy_alpha (-1) (-1) bs 0 (3 / 4) toy_particle Ec) as (a & Ea);
    [cbn; lia|lra|rewrite sign_neg by lra; cbn; lra|].
  destruct (sample_alpha_real half_rng (toy (-1) bs) 1 1 T_one eq_refl ltac:(lra) ltac:(lra) T_one_pos
    toy_particle toy_particle (-1) a ltac:(rewrite Rmult_assoc, KT; lra) Ea) as (w & _ & Ew).
  assert (Z : 1 + -1 * k_B * T_one = 0) by (rewrite Rmult_assoc, KT; lra).
  exists half_rng, (toy (-1) bs), toy_particle. eexists.
  exists toy_cell, (V3 1 0 0), 1, 1, T_one.
  split; [exact (open_valid _ half_open)|]. split; [reflexivity|]. split; [lra|].
  split; [reflexivity|]. split; [lra|]. split; [reflexivity|].
  split; [apply unit_dot; unfold dot; cbn; lra|]. split; [reflexivity|]. split; [reflexivity|].
  split; [exact T_one_pos|]. split.
  { unfold th_scatter. change (get_continuous (p_energy toy_particle)) with (Ok (Fin 1 : num XRa)).
    change (get_cell toy_particle) with (Ok toy_cell). cbn [bind].
    change (field_at (c_temperature toy_cell) (p_position toy_particle)) with (Fin T_one : num XRa).
    rewrite toy_beta by lra. cbn [bind]. rewrite Ea. cbn [bind]. rewrite boltzmann_real. reflexivity. }
  unfold p_scatter. rewrite half_unif.
  cbn [p_energy set_energy set_direction p_direction set_indirect].
  change (nadd XRa (Fin 1) (nmul XRa (nmul XRa (Fin (-1)) (Fin k_B)) (Fin T_one)))
    with (Fin (1 + -1 * k_B * T_one)). rewrite Z. split; [reflexivity|].
  rewrite Ew, Z. unfold alpha_min, alpha_max.
  change (th_awr (toy (-1) bs)) with (Fin 1 : num XRa).
  replace ((sqrt 1 - sqrt 0) ^ 2 / (1 * k_B * T_one) + w * ((sqrt 1 + sqrt 0) ^ 2 / (1 * k_B * T_one)
     - (sqrt 1 - sqrt 0) ^ 2 / (1 * k_B * T_one))) with 1
    by (rewrite sqrt_0, sqrt_1; replace (1 * k_B * T_one) with 1 by lra; field).
  assert (Nn : ndiv XRa (nsub XRa (nadd XRa (Fin 1) (Fin 0)) (nmul XRa (nmul XRa (nmul XRa (Fin 1) (Fin 1)) (Fin k_B)) (Fin T_one)))
    (nmul XRa (nofZ XRa 2) (nsqrt XRa (nmul XRa (Fin 1) (Fin 0)))) = NaN).
  { change (nsqrt XRa (nmul XRa (Fin 1) (Fin 0))) with (xsqrt (Fin (1 * 0))).
    rewrite xsqrt_fin by lra.
    change (xdiv (Fin (1 + 0 + - (1 * 1 * k_B * T_one))) (Fin (2 * sqrt (1 * 0))) = NaN).
    replace (1 + 0 + - (1 * 1 * k_B * T_one)) with 0 by lra. rewrite Rmult_0_r, sqrt_0, Rmult_0_r.
    cbn [xdiv]. rewrite Reqb_true by reflexivity. unfold xsinf. now rewrite !Rltb_false by lra. }
  rewrite Nn. intros (d' & Ed). apply (f_equal px) in Ed. revert Ed.
  change (px (pt d')) with (Fin (vx d')). unfold dir_rotate.
  match goal with |- px (dir_of_point (padd ?x ?y)) = _ -> _ => set (vu := x); set (vw := y) end.
  assert (Ev : px vw = NaN) by reflexivity.
  assert (Es : px (padd vu vw) = NaN).
  { change (xadd (px vu) (px vw) = NaN). rewrite Ev. now destruct (px vu). }
  change (xdiv (px (padd vu vw)) (nsqrt XRa (pdot (padd vu vw) (padd vu vw))) = Fin (vx d') -> False).
  rewrite Es. discriminate.
Qed.

Lemma C68_lowest_temperature_refuted_proof :
  exists pa Fs grid Ts W i k (T : R),
  partition_table pa Fs grid Ts W /\ increasing Ts /\ Ts <> []
  /\ (i < length Fs)%nat /\ (k < length grid)%nat /\ 0 < T
  /\ forall x, interpolated Ts (W i k) T x ->
     partition_evaluate (A := XRa) pa (N.of_nat i) (N.of_nat k) (Fin T) <> Ok (Fin x).
Proof.
  pose proof T_one_pos. destruct toy_temperatures as [I N].
  exists (toy_partition [1] 3), [1 / 2], [1], [T_one; 2 * T_one], (fun _ _ _ => 3), O, O, (T_one / 2).
  split; [apply toy_table|]. split; [exact I|]. split; [exact N|]. split; [cbn; lia|]. split; [cbn; lia|].
  split; [lra|]. intros x _.
  destruct (partition_evaluate_real (toy_partition [1] 3) [1 / 2] [1] [T_one; 2 * T_one] _ 0 0
    (T_one / 2) (toy_table [1] 3) I N ltac:(cbn; lia) ltac:(cbn; lia)) as (v & E & _ & _ & H3).
  change (N.of_nat 0) with 0%N in *. rewrite E, (H3 ltac:(left; cbn; lra)). discriminate.
Qed.
