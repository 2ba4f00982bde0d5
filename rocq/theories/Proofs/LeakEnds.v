(** Particles leave bounded worlds with probability one, absorbed or not: property C100. *)
From Coq Require Import Bool String List Reals ZArith NArith Lra Lia Classical.
From Coquelicot Require Import Coquelicot.
From Verif Require Import Model.Num Model.Outcome Model.Rng Model.Xml Model.Std Model.Point
  Model.Surface Model.Types Model.Field Model.Particle Model.Multigroup Model.Thermal
  Model.Continuous Model.Material Model.World Model.Perturbation Model.Estimator Model.Transport Model.Driver
  Spec.Vec Spec.GeometrySpec Spec.CellSpec Spec.DirectionSpec Spec.RngSpec Spec.SumSpec
  Spec.MultigroupSpec Spec.MaterialSpec Spec.TextExt Spec.TransportSpec Spec.ChanceSpec Spec.EndingSpec
  Proofs.OutcomeLib Proofs.RealLib Proofs.RngProofs Proofs.GeometryProofs Proofs.CellProofs
  Proofs.StreamProofs Proofs.StepLib Proofs.DirectionProofs Proofs.MultigroupProofs
  Proofs.MultigroupReal Proofs.MaterialProofs Proofs.TransportProofs Proofs.WellPosed
  Proofs.CrossingProofs Proofs.SampleProblem Proofs.ChanceLib Proofs.FlightLaw Proofs.HistoryEnds.
Import ListNotations.
Local Open Scope R_scope.

(** ** The way out of a sphere *)

Definition within_ball (c : vec) (r : R) (x : vec) : Prop := contains (Sphere (pt c) (Fin r)) (pt x) = true.

Lemma ball_off c r x : 0 < r -> within_ball c r x -> ~ on_surface (Sphere (pt c) (Fin r)) x.
Proof.
  unfold within_ball. rewrite sphere_contains. intros Hr H. cbn. intros (cv & E & D).
  assert (c = cv) as <- by (unfold pt in E; destruct c, cv; cbn in E; injection E; intros; subst; auto).
  unfold on_sphere, dist, norm in D. destruct (Rltb_spec (dot (vsub x c) (vsub x c)) (r * r)); [|discriminate].
  assert (0 <= dot (vsub x c) (vsub x c)) by (unfold dot; nra).
  pose proof (sqrt_sqrt _ H0). rewrite D in H1. lra.
Qed.

Lemma ball_exit c r x u : 0 < r -> unit u -> within_ball c r x ->
  exists d, distance (Sphere (pt c) (Fin r)) (pt x) (pt u) = Fin d /\ 0 < d <= 2 * r
    /\ forall t, 0 <= t < d -> within_ball c r (along x u t).
Proof.
  intros Hr Hu Hx.
  destruct (C09_side_changes_at_distance_proof (Sphere (pt c) (Fin r)) x u (sop_sphere c r Hr) Hu
    (ball_off c r x Hr Hx)) as (H1 & H2 & H3).
  assert (Out : ~ within_ball c r (along x u (2 * r))).
  { unfold within_ball in *. rewrite sphere_contains in *.
    destruct (Rltb_spec (dot (vsub x c) (vsub x c)) (r * r)); [|discriminate].
    destruct (Rltb_spec (dot (vsub (along x u (2 * r)) c) (vsub (along x u (2 * r)) c)) (r * r)); [|discriminate].
    exfalso. apply unit_dot in Hu. destruct x, c, u. unfold along, vadd, vscale, vsub, dot in *. cbn in *.
    set (a0 := vx - vx0) in *. set (a1 := vy - vy0) in *. set (a2 := vz - vz0) in *.
    replace (vx + 2 * r * vx1 - vx0) with (a0 + 2 * r * vx1) in r1 by (unfold a0; ring).
    replace (vy + 2 * r * vy1 - vy0) with (a1 + 2 * r * vy1) in r1 by (unfold a1; ring).
    replace (vz + 2 * r * vz1 - vz0) with (a2 + 2 * r * vz1) in r1 by (unfold a2; ring).
    (* |a|^2 + 4 r a.u + 4 r^2 < r^2, |a|^2 < r^2, (a.u)^2 <= |a|^2 *)
    set (k := a0 * vx1 + a1 * vy1 + a2 * vz1).
    assert (E : (a0 + 2 * r * vx1) * (a0 + 2 * r * vx1) + (a1 + 2 * r * vy1) * (a1 + 2 * r * vy1)
      + (a2 + 2 * r * vz1) * (a2 + 2 * r * vz1) = (a0 * a0 + a1 * a1 + a2 * a2) + 4 * r * k + 4 * r * r).
    { unfold k. replace (4 * r * r) with (4 * r * r * (vx1 * vx1 + vy1 * vy1 + vz1 * vz1)) by (rewrite Hu; ring). ring. }
    rewrite E in r1.
    assert (CS : k * k <= a0 * a0 + a1 * a1 + a2 * a2).
    { assert (0 <= (a0 - k * vx1) * (a0 - k * vx1) + (a1 - k * vy1) * (a1 - k * vy1) + (a2 - k * vz1) * (a2 - k * vz1))
        by (apply Rplus_le_le_0_compat; [apply Rplus_le_le_0_compat|]; apply Rle_0_sqr).
      replace ((a0 - k * vx1) * (a0 - k * vx1) + (a1 - k * vy1) * (a1 - k * vy1) + (a2 - k * vz1) * (a2 - k * vz1))
        with ((a0 * a0 + a1 * a1 + a2 * a2) - 2 * k * k + k * k * (vx1 * vx1 + vy1 * vy1 + vz1 * vz1)) in H
        by (unfold k; ring). rewrite Hu in H. lra. }
    set (q := a0 * a0 + a1 * a1 + a2 * a2) in *.
    assert (- r < k) by nra. nra. }
  destruct H3 as [H3|(d & H3)].
  - exfalso. apply Out. unfold within_ball. rewrite (H2 H3 (2 * r)) by lra. exact Hx.
  - destruct (H1 d H3) as (P & Q & _). exists d. split; [exact H3|]. split.
    + split; [exact P|]. destruct (Rle_dec d (2 * r)); auto. exfalso. apply Out.
      unfold within_ball. rewrite Q by lra. exact Hx.
    + intros s Hs. unfold within_ball. rewrite Q by lra. exact Hx.
Qed.

Lemma uniform_bound {I : Type} (P : I -> R -> Prop) (l : list I) :
  (forall i x y, x <= y -> P i x -> P i y) -> (forall i, In i l -> exists x, P i x) ->
  exists x, 0 <= x /\ forall i, In i l -> P i x.
Proof.
  intros Mono. induction l as [|i l IH]; intros H.
  { exists 0. split; [lra|intros i []]. }
  destruct IH as (x & Hx & Px); [intros j Hj; apply H; now right|].
  destruct (H i (or_introl eq_refl)) as (y & Py).
  exists (Rmax x y). split; [apply Rle_trans with x; auto; apply Rmax_l|].
  intros j [<-|Hj]; [eapply Mono; [apply Rmax_r|exact Py]|eapply Mono; [apply Rmax_l|auto]].
Qed.

Lemma exp_le x y : x <= y -> exp x <= exp y.
Proof. intros [H| ->]; [left; now apply exp_increasing|lra]. Qed.

Section Leaks.
  Variables (X : Ext XRa) (Gs : list N) (w : world XRa).
  Hypotheses (MW : multigroup_world X Gs w) (PG : plain_geometry w) (BC : bounded_cells w).
  Notation live := (live Given Gs w).
  Implicit Types p q : particle XRa Given.

  Let V : valid_rng Given := open_valid _ given_open.

  Lemma no_absorption : absorbing_world X Gs 0 w.
  Proof.
    intros c m Hc Em. destruct (MW c m Hc Em) as (D & Ne & H). split; [auto|split; [auto|]].
    intros nu a Hin. destruct (H nu a Hin) as (Ha & n & mg & H1 & H2 & H3 & H4 & H5).
    split; auto. exists n, mg. repeat (split; auto).
    pose proof (multigroup_built X n mg H2) as B.
    assert (Hg' : In g (groups (written_groups X n))) by (rewrite H4; auto).
    destruct (sigma_written X n mg Rcapture g B H3 Hg') as [C0 _].
    destruct (sigma_written X n mg Rfission g B H3 Hg') as [F0 _].
    lra.
  Qed.
  Let AW := no_absorption.
  Let Hb0 : 0 <= 0 <= 1 := conj (Rle_refl 0) Rle_0_1.

  (** Rates of flight are bounded. *)
  Lemma total_group m p q : multigroup_material X Gs m -> group_neutron Gs p -> group_neutron Gs q ->
    p_energy q = p_energy p -> mat_total m q = mat_total m p.
  Proof.
    intros (_ & _ & Hm) [T1 _ _ _] [T2 _ _ _] E. unfold mat_total, sum_afracs. f_equal.
    assert (H : forall l (x : num XRa), (forall y, In y l -> In y (m_afracs m)) ->
      foldM (fun acc (x : nuclide XRa * num XRa) => let! s := nu_total (fst x) q in Ok (nadd XRa acc (nmul XRa (snd x) s)))%outcome l x
      = foldM (fun acc (x : nuclide XRa * num XRa) => let! s := nu_total (fst x) p in Ok (nadd XRa acc (nmul XRa (snd x) s)))%outcome l x).
    { induction l as [|[nu a] l IH]; intros x Hl; cbn [foldM]; auto.
      assert (Et : nu_total nu q = nu_total nu p).
      { destruct (Hm nu a) as (_ & n & mg & D & _); [apply Hl; now left|].
        unfold nu_total. rewrite (nu_multigroup nu q mg), (nu_multigroup nu p mg) by (rewrite ?T1, ?T2; auto).
        cbn [bind]. unfold mg_get_total. now rewrite E. }
      cbn [fst]. rewrite Et. destruct (nu_total nu p); cbn [bind]; auto. apply IH. intros y Hy. apply Hl. now right. }
    first [apply H; auto | idtac].
  Qed.

  Lemma rates_bounded : exists M, 0 <= M /\ forall t p c m D T, live p -> p_cell p = Some c ->
    In c (w_cells w) -> c_material c = Some m -> m_density m = Fin D ->
    collision_density t p = Ok (Fin T) -> 0 < D -> D * T <= M.
  Proof.
    pose (P := fun (cg : cell XRa * N) (M : R) => forall t p m D T, live p -> p_energy p = Group (snd cg) ->
      p_cell p = Some (fst cg) -> In (fst cg) (w_cells w) -> c_material (fst cg) = Some m -> m_density m = Fin D ->
      collision_density t p = Ok (Fin T) -> 0 < D -> D * T <= M).
    destruct (uniform_bound P (list_prod (w_cells w) Gs)) as (M & HM & H).
    - intros i x y Hxy Hx t p m D T H1 H2 H3 H4 H5 H6 H7 H8. pose proof (Hx t p m D T H1 H2 H3 H4 H5 H6 H7 H8). lra.
    - intros [c g] Hi. cbn [fst snd] in *.
      destruct (classic (exists p m D T, live p /\ p_energy p = Group g /\ p_cell p = Some c /\ In c (w_cells w)
        /\ c_material c = Some m /\ m_density m = Fin D /\ mat_total m p = Ok (Fin T))) as [Yes|No].
      + destruct Yes as (p0 & m0 & D0 & T0 & L0 & E0 & C0 & I0 & M0 & De0 & To0).
        exists (D0 * T0). intros t p m D T L E C I M' De Cd HD. cbn [fst snd] in *.
        rewrite M0 in M'. injection M' as <-. rewrite De0 in De. injection De as <-.
        enough (T = T0) by (subst; lra).
        assert (Tp : mat_total m0 p = Ok (Fin T)).
        { unfold collision_density, get_material, get_cell in Cd. rewrite C in Cd. cbn in Cd. rewrite M0 in Cd. cbn in Cd.
          destruct (material_total Given X Gs m0 p (MW c m0 I M0) (lv_neutron _ _ _ _ L)) as (_ & T' & _ & E1 & E2 & _).
          destruct t; [rewrite E1 in Cd|rewrite E2 in Cd]; injection Cd as <-; exact E1. }
        rewrite (total_group m0 p0 p) in Tp; auto; [|now apply (MW c)|apply L0|apply L|congruence].
        rewrite To0 in Tp. injection Tp as <-. reflexivity.
      + exists 0. intros t p m D T L E C I M' De Cd HD. cbn [fst snd] in *. exfalso. apply No.
        destruct (material_total Given X Gs m p (MW c m I M') (lv_neutron _ _ _ _ L)) as (_ & T' & _ & E1 & _).
        exists p, m, D, T'. repeat (split; auto).
    - exists M. split; auto. intros t p c m D T L C I Em De Cd HD.
      destruct (gn_group _ _ (lv_neutron _ _ _ _ L)) as (g & Eg & Hg).
      apply (H (c, g) (proj2 (in_prod_iff _ _ _ _) (conj I Hg)) t p m); auto.
  Qed.

  Lemma radii_bounded : exists R0, 0 <= R0 /\ forall c m, In c (w_cells w) -> c_material c = Some m ->
    exists s ctr r, In (s, true) (c_senses c) /\ s_shape (su_surface s) = Sphere (pt ctr) (Fin r) /\ 0 < r <= R0.
  Proof.
    destruct (uniform_bound (fun (c : cell XRa) (R0 : R) => In c (w_cells w) -> forall m, c_material c = Some m ->
      exists s ctr r, In (s, true) (c_senses c) /\ s_shape (su_surface s) = Sphere (pt ctr) (Fin r) /\ 0 < r <= R0)
      (w_cells w)) as (R0 & HR & H).
    - intros i x y Hxy Hx Hi m Em. destruct (Hx Hi m Em) as (s & ctr & r & H1 & H2 & H3).
      exists s, ctr, r. repeat (split; auto); lra.
    - intros c Hc. destruct (c_material c) as [m|] eqn:Em.
      + destruct (BC c m Hc Em) as (s & ctr & r & H1 & H2). exists r. intros _ m' _. exists s, ctr, r.
        repeat (split; auto); [|lra].
        assert (Rs : real_shape (s_shape (su_surface s))) by (apply (pg_shapes _ PG c); auto; now exists true).
        rewrite H2 in Rs. inversion Rs; subst; auto.
      + exists 0. intros _ m' E. discriminate.
    - exists R0. split; auto. intros c m Hc Em. exact (H c Hc Hc m Em).
  Qed.

  (** A live particle strictly within a sphere of its cell. *)
  Definition safe (R0 : R) p : Prop := live p /\ exists c s ctr r x, p_cell p = Some c
    /\ In (s, true) (c_senses c) /\ s_shape (su_surface s) = Sphere (pt ctr) (Fin r) /\ 0 < r <= R0
    /\ p_position p = pt x /\ within_ball ctr r x.

  Lemma flight_below S r y : 0 < S -> 0 < y < 1 ->
    (y < 1 - exp (- (S * r)) -> flight S y < r) /\ (1 - exp (- (S * r)) < y -> r < flight S y).
  Proof.
    intros HS Hy. unfold flight.
    assert (E : forall z, z / S < r <-> z < S * r).
    { intros z. replace z with (z / S * S) at 2 by (field; lra). rewrite (Rmult_comm S r).
      split; intros H; [now apply Rmult_lt_compat_r|apply Rmult_lt_reg_r with S; auto]. }
    assert (E' : forall z, r < z / S <-> S * r < z).
    { intros z. replace z with (z / S * S) at 2 by (field; lra). rewrite (Rmult_comm S r).
      split; intros H; [now apply Rmult_lt_compat_r|apply Rmult_lt_reg_r with S; auto]. }
    split; intros H.
    - apply E. assert (- (S * r) < ln (1 - y)); [|lra].
      rewrite <- (ln_exp (- (S * r))). apply ln_increasing; [apply exp_pos|lra].
    - apply E'. assert (ln (1 - y) < - (S * r)); [|lra].
      rewrite <- (ln_exp (- (S * r))). apply ln_increasing; lra.
  Qed.

  Let N : nat := (2 * length (sides w))%nat.

  Lemma leak_chance (t : tracking) (M R0 : R) :
    0 <= M -> (forall p c m D T, live p -> p_cell p = Some c ->
      In c (w_cells w) -> c_material c = Some m -> m_density m = Fin D ->
      collision_density t p = Ok (Fin T) -> 0 < D -> D * T <= M) ->
    0 <= R0 -> (forall c m, In c (w_cells w) -> c_material c = Some m ->
    exists s ctr r, In (s, true) (c_senses c) /\ s_shape (su_surface s) = Sphere (pt ctr) (Fin r) /\ 0 < r <= R0) ->
    let e := exp (- (M * (2 * R0))) in
    forall k F p n, safe R0 p -> (k * N <= F)%nat -> (7 * F <= n)%nat ->
    at_most n (fun l => goes w t F (set_rng p l)) ((1 - e ^ N) ^ k).
  Proof.
    intros HM Rate HR Radius e.
    assert (He : 0 < e <= 1).
    { split; [apply exp_pos|]. unfold e. rewrite <- exp_0. apply exp_le.
      assert (0 <= M * (2 * R0)) by (apply Rmult_le_pos; lra). lra. }
    assert (Pe : forall c, 0 < e ^ c <= 1).
    { intros c. split; [apply pow_lt; lra|]. rewrite <- (pow1 c). apply pow_incr. lra. }
    set (Q := 1 - e ^ N).
    assert (HQ : 0 <= Q <= 1) by (unfold Q; specialize (Pe N); lra).
    assert (PQ : forall k, 0 <= Q ^ k) by (intros k; apply pow_le; lra).
    induction k as [|k IHk]; intros F p n Sp HF Hn.
    { cbn [pow]. apply at_most_const; intros; lra. }
    assert (Inner : forall c F p o u a n, safe R0 p -> p_position p = pt (along o u a) ->
      p_direction p = pt u -> unit u -> (ahead (all_meets w o u) a <= c)%nat ->
      (c + k * N <= F)%nat -> (7 * F <= n)%nat ->
      at_most n (fun l => goes w t F (set_rng p l)) ((1 - e ^ c) * Q ^ k)).
    2: { destruct Sp as [L Sp']. destruct (gn_position _ _ (lv_neutron _ _ _ _ L)) as (x & Ex).
      destruct (gn_direction _ _ (lv_neutron _ _ _ _ L)) as (u & Eu & Hu).
      apply (Inner N F p x u 0 n (conj L Sp')); auto.
      - rewrite Ex. f_equal. destruct x; unfold along, vadd, vscale; cbn; f_equal; ring.
      - eapply Nat.le_trans; [apply ahead_length|apply all_meets_length]. }
    clear F p n Sp HF Hn.
    induction c as [|c IHc]; intros F p o u a n (L & cl & s0 & ctr & rr & x & Ec & Hs0 & Es0 & Hrr & Ex & Hx) Ep Ed Hu Hc HF Hn;
      destruct (step_full X Gs 0 w t AW PG Hb0 p (along o u a) u L Ep Ed Hu)
        as (cl' & m & D & T & s & ds & Ec' & Hcl & Em & De & HD & Cd & HT & Hs & Eds & Least & Hds & Step);
      rewrite Ec in Ec'; injection Ec' as <-;
      (assert (x = along o u a) as -> by (rewrite Ex in Ep; unfold pt in Ep; destruct x, (along o u a); cbn in Ep;
         injection Ep; intros; subst; auto));
      destruct (ball_exit ctr rr _ u ltac:(lra) Hu Hx) as (db & Edb & Hdb & Inb);
      pose proof (Least s0 (ex_intro _ true Hs0)) as Le; unfold surf_distance in Le; rewrite Es0, Edb in Le;
      (destruct Hds as [->|(r & -> & Hr)]; [discriminate|]);
      cbn in Le; (assert (Lr : r <= db) by (revert Le; destruct (Rleb_spec r db); [auto|discriminate]));
      assert (Z : In (a + r) (all_meets w o u)) by
        (apply in_flat_map; exists s; split; [now apply (sides_in w cl)|];
         apply meets_all; auto; now apply (pg_shapes _ PG cl));
      pose proof k0_pos as K0;
      pose proof (ahead_less _ a (a + (r + k0)) _ Z ltac:(lra)) as Lt; [lia|].
    destruct F as [|F]; [lia|].
    assert (K : forall q (l : list R) n' z, 0 <= z ->
      (forall l0, transport_step t F w (set_rng p (l ++ l0)) = Ok (set_rng q l0)) ->
      (is_alive q = true -> live q -> at_most n' (fun l0 => goes w t F (set_rng q l0)) z) ->
      at_most n' (fun l0 => goes w t (S F) (set_rng p (l ++ l0))) z).
    { intros q l n' z Pz E H. destruct (is_alive q) eqn:Al.
      - assert (Lq : live q).
        { destruct (step_live Given V X Gs w MW PG t F _ (live_rng Gs w p (l ++ []) L)) as (q' & E' & St & _).
          rewrite E in E'. injection E' as <-. apply (live_back Gs w q []).
          apply (sp_neutron _ _ _ _ _ St). exact Al. }
        eapply at_most_mono; [|apply Rle_refl|exact (H eq_refl Lq)].
        intros l0 _ _ G. now apply (goes_step X Gs 0 w t AW PG F _ _ (live_rng Gs w p _ L) (E l0)).
      - apply at_most_const; [exact Pz|]. intros l0 G. exfalso.
        destruct (goes_step X Gs 0 w t AW PG F _ _ (live_rng Gs w p _ L) (E l0) G) as [G' _].
        apply goes_alive in G'. cbn in G'. change (is_alive q = true) in G'. congruence. }
    assert (Dead : forall (l : list R) n' (z : R),
      (forall l0, exists q', transport_step t F w (set_rng p (l ++ l0)) = Ok q' /\ is_alive q' = false) ->
      z = 0 -> at_most n' (fun l0 => goes w t (S F) (set_rng p (l ++ l0))) z).
    { intros l n' z H ->. apply at_most_const; [lra|]. intros l0 G. exfalso.
      destruct (H l0) as (q' & E & D').
      destruct (goes_step X Gs 0 w t AW PG F _ _ (live_rng Gs w p _ L) E G) as [G' _].
      apply goes_alive in G'. congruence. }
    assert (HS : 0 < D * T) by now apply Rmult_lt_0_compat.
    set (y0 := 1 - exp (- (D * T * r))).
    assert (Hy0 : 0 <= y0 <= 1 /\ e <= 1 - y0).
    { unfold y0. pose proof (exp_pos (- (D * T * r))).
      assert (exp (- (D * T * r)) <= 1).
      { rewrite <- exp_0. apply exp_le. assert (0 <= D * T * r) by (apply Rmult_le_pos; lra). lra. }
      split; [lra|]. replace (1 - (1 - exp (- (D * T * r)))) with (exp (- (D * T * r))) by ring.
      unfold e. apply exp_le. apply Ropp_le_contravar.
      pose proof (Rate p cl m D T L Ec Hcl Em De Cd HD). apply Rmult_le_compat; lra. }
    destruct Hy0 as [Hy0 He0].
    destruct n as [|n]; [lia|].
    assert (Bd : y0 * Q ^ k + (1 - y0) * ((1 - e ^ c) * Q ^ k) <= (1 - e ^ S c) * Q ^ k).
    { cbn [pow]. specialize (PQ k). pose proof (Pe c).
      assert (0 <= (1 - y0 - e) * e ^ c * Q ^ k).
      { apply Rmult_le_pos; [apply Rmult_le_pos; lra|auto]. }
      lra. }
    eapply at_most_mono; [intros l _ _ G; exact G|exact Bd|].
    apply at_most_split; [lra| |].
    - (* a collision *)
      intros y Hy.
      pose proof (proj1 (flight_below (D * T) r y HS ltac:(lra)) (proj2 Hy)) as Fl.
      destruct (Step y ltac:(lra)) as [(q & r' & c' & Er & Far & _)|(q & _ & Pq & Nq & Cq & E)].
      { injection Er as <-. lra. }
      assert (Fl0 : 0 <= flight (D * T) y).
      { unfold flight. apply Rmult_le_pos; [|left; now apply Rinv_0_lt_compat].
        assert (ln (1 - y) <= 0); [|lra]. rewrite <- ln_1. left. apply ln_increasing; lra. }
      pose proof (Inb (flight (D * T) y) ltac:(lra)) as Bq.
      assert (Mx : forall l n', (6 * F + 5 + F <= n')%nat ->
        (forall fuel l0, transport_step t fuel w (set_rng p (l ++ l0)) = react fuel (set_rng q l0)) ->
        at_most n' (fun l0 => goes w t (S F) (set_rng p (l ++ l0))) (Q ^ k)).
      { intros l n' Hn' St. destruct n' as [|n']; [lia|]. apply at_most_draw. intros v Hv.
        destruct (react_given X Gs 0 w AW q cl m v Nq Cq Hcl Em Hv) as (lo & hi & Hl & Hh & Hd & Cs).
        destruct n' as [|n']; [lia|].
        assert (B : (hi - lo) * Q ^ k <= Q ^ k) by (specialize (PQ k); nra).
        eapply at_most_mono; [intros l0 _ _ G; exact G|exact B|].
        apply (interval_most n' _ lo hi); auto.
        + intros z Hz. destruct n' as [|[|[|n']]]; try lia.
          apply at_most_draw. intros x1 H1. apply at_most_draw. intros x2 H2. apply at_most_draw. intros x3 H3.
          destruct (proj2 (Cs z ltac:(lra)) Hz x1 x2 x3 H1) as (q' & Pq' & Cq' & Eq').
          eapply at_most_mono; [|apply Rle_refl|
            apply (K q' (l ++ [v; z; x1; x2; x3]) n' (Q ^ k) (PQ _))].
          * intros l0 _ _ G. cbv beta. rewrite <- app_assoc. exact G.
          * intros l0. rewrite <- app_assoc. rewrite St. apply Eq'.
          * intros Al Lq. apply (IHk F q' n'); [|lia|lia]. split; auto.
            exists cl, s0, ctr, rr, (along (along o u a) u (flight (D * T) y)).
            rewrite Pq', Cq'. repeat (split; auto); lra.
        + intros z Hz Out.
          eapply at_most_mono; [|apply Rle_refl|apply (Dead (l ++ [v; z]) n' 0)].
          * intros l0 _ _ G. cbv beta. rewrite <- app_assoc. exact G.
          * intros l0. rewrite <- app_assoc, St. apply (proj1 (Cs z Hz) Out).
          * reflexivity. }
      destruct t eqn:Et.
      + apply (Mx [y] n); [lia|]. intros fuel l0. apply (E fuel l0).
      + destruct n as [|n]; [lia|]. apply at_most_draw. intros e' He'.
        apply (Mx [y; e'] n); [lia|]. intros fuel l0. apply (E fuel l0 e' He').
    - (* a surface is crossed *)
      intros y Hy.
      pose proof (proj2 (flight_below (D * T) r y HS ltac:(lra)) (proj1 Hy)) as Fl.
      destruct (Step y ltac:(lra)) as [(q & r' & c' & Er & _ & Pq & Dq & Cq & Fq & E)|(q & Near & _)].
      2: { specialize (Near r eq_refl). lra. }
      injection Er as <-.
      apply (K q [y] n). { specialize (PQ k). pose proof (Pe c). apply Rmult_le_pos; lra. }
      { intros l0. apply E. }
      intros Al Lq. rewrite along_add in Pq.
      apply (IHc F q o u (a + (r + k0)) n); auto; try lia. split; auto.
      destruct (lv_material _ _ _ _ Lq) as (c2 & m2 & Ec2 & Hc2 & Em2).
      rewrite Cq in Ec2. injection Ec2 as <-.
      destruct (Radius c' m2 Hc2 Em2) as (s2 & ctr2 & r2 & Hs2 & Es2 & Hr2).
      exists c', s2, ctr2, r2, (along o u (a + (r + k0))). repeat (split; auto); try lra.
      destruct Fq as (_ & _ & _ & Iq & _). specialize (Iq s2 true Hs2). rewrite Es2, Pq in Iq. exact Iq.
  Qed.
End Leaks.

Lemma C100_leaks_proof :
  forall (X : Ext XRa) (Gs : list N) (w : world XRa),
  multigroup_world X Gs w -> plain_geometry w -> bounded_cells w ->
  exists q, 0 <= q < 1 /\
  forall (E : Type) (score : E -> particle XRa Given -> outcome E) (t : tracking) (e : E)
    (p : particle XRa Given) c m,
  (forall e x, exists e', score e x = Ok e') ->
  group_neutron Gs p -> first_cell w (p_position p) c -> c_material c = Some m ->
  forall F n, (7 * F <= n)%nat ->
    at_most n (fun l => ~ exists e' q, transport score t F w e (set_rng p l) = Ok (e', q))
      (q ^ (F / (2 * length (sides w)))).
Proof.
  intros X Gs w MW PG BC.
  destruct (rates_bounded X Gs w MW) as (M & HM & Rate).
  destruct (radii_bounded w PG BC) as (R0 & HR & Radius).
  set (N := (2 * length (sides w))%nat). set (e0 := exp (- (M * (2 * R0)))).
  exists (1 - e0 ^ N). split.
  { assert (He : 0 < e0 <= 1).
    { split; [apply exp_pos|]. unfold e0. rewrite <- exp_0. apply exp_le.
      assert (0 <= M * (2 * R0)) by (apply Rmult_le_pos; lra). lra. }
    assert (0 < e0 ^ N) by (apply pow_lt; lra).
    assert (e0 ^ N <= 1) by (rewrite <- (pow1 N); apply pow_incr; lra). lra. }
  intros E score t e p c m Hs Hn Fc Em F n HF.
  destruct (gn_position _ _ Hn) as (x & Ex).
  assert (Ef : find_cell w (p_position p) = Ok c).
  { rewrite Ex in *. destruct (find_cell_total w PG x) as (c' & Ec' & Fc' & _). rewrite Ec'. f_equal.
    eapply first_cell_unique; eauto. }
  assert (Hc : In c (w_cells w)) by now apply first_cell_in in Fc.
  assert (L : live Given Gs w (set_cell p c)).
  { constructor; [destruct Hn; constructor; auto|]. exists c, m. auto. }
  assert (Sf : safe Gs w R0 (set_cell p c)).
  { split; auto. destruct (Radius c m Hc Em) as (s & ctr & r & Hs1 & Es1 & Hr).
    exists c, s, ctr, r, x. repeat (split; auto); try lra.
    destruct Fc as (_ & _ & _ & I & _). specialize (I s true Hs1). rewrite Es1, Ex in I. exact I. }
  eapply at_most_mono; [|apply Rle_refl|
    apply (leak_chance X Gs w MW PG t M R0 HM (Rate t) HR Radius (F / N)%nat F (set_cell p c) n Sf)]; auto.
  - intros l _ _ H'.
    assert (H : transport score t F w e (set_rng p l) = OutOfFuel).
    { destruct (C71_transport_never_fails_proof Given X Gs w E score t F e (set_rng p l) c m) as [H|H];
        auto; [apply (open_valid _ given_open)| |contradiction].
      destruct Hn; constructor; auto. }
    clear H'. unfold transport in H. change (p_position (set_rng p l)) with (p_position p) in H.
    rewrite Ef in H. cbn [bind] in H.
    apply (goes_score score t w Hs F e).
    change (set_rng (set_cell p c) l) with (set_cell (set_rng p l) c).
    destruct (transport_loop score t F w e (set_cell (set_rng p l) c)); try discriminate. reflexivity.
  - unfold N. destruct (2 * length (sides w))%nat as [|k] eqn:Ek; [lia|].
    rewrite Nat.mul_comm. apply Nat.mul_div_le. lia.
Qed.

(** ** Histories without fission *)

Section Quiet.
  Variables (X : Ext XRa) (Gs : list N) (w : world XRa).
  Hypotheses (MW : multigroup_world X Gs w) (PG : plain_geometry w) (NM : non_multiplying X Gs w).
  Notation live := (live Given Gs w).
  Implicit Types p q : particle XRa Given.
  Let V : valid_rng Given := open_valid _ given_open.

  Lemma stream_quiet t p d q : stream t p d = Ok q -> p_cell q = p_cell p
    /\ p_energy q = p_energy p /\ p_type q = p_type p /\ p_secondaries q = p_secondaries p.
  Proof.
    unfold stream. destruct (mapM _ _); cbn [bind noexcept]; intros H; try discriminate. injection H as <-. cbn. auto.
  Qed.

  Lemma nuclide_quiet p nu q : sample_nuclide p = Ok (nu, q) ->
    (exists s, q = set_rng p s) /\ forall c m, p_cell p = Some c -> c_material c = Some m ->
      exists a, In (nu, a) (m_afracs m).
  Proof.
    unfold sample_nuclide. destruct (p_cell p) as [c|]; [|discriminate].
    destruct (c_material c) as [m|] eqn:Em; [|discriminate].
    destruct (mat_total m p) as [T| | | |]; cbn [bind noexcept]; try discriminate.
    unfold p_unif. destruct (runif Given (p_rng p)) as [v s].
    destruct (pick_nuclide _ _ _ _) as [[nu'|]| | | |] eqn:Ep; cbn [bind noexcept]; try discriminate.
    intros H. injection H as <- <-. split; [eauto|]. intros c' m' E E'. injection E as <-.
    rewrite Em in E'. injection E' as <-. clear -Ep. revert Ep.
    match goal with |- pick_nuclide _ _ ?a ?b = _ -> _ => generalize a b end.
    induction (m_afracs m) as [|[k f] l IH]; intros a b; cbn [pick_nuclide]; [discriminate|].
    destruct (nu_total k _); cbn [bind]; try discriminate.
    destruct (nltb _ _ _); [intros H; injection H as <-; exists f; now left|].
    intros H. destruct (IH _ _ H) as (f' & Hf). exists f'. now right.
  Qed.

  Lemma collide_quiet fuel t p d q c m : group_neutron Gs p -> p_cell p = Some c -> In c (w_cells w) ->
    c_material c = Some m -> collide (A := XRa) fuel t d p = Ok q -> p_secondaries q = p_secondaries p.
  Proof.
    intros [T1 (g & Eg & Hg) _ _] Ec Hc Em. unfold collide.
    destruct (stream t p d) as [p1| | | |] eqn:E1; cbn [bind]; try discriminate.
    destruct (stream_quiet t p d p1 E1) as (C1 & G1 & Y1 & S1).
    destruct (sample_nuclide p1) as [[nu p2]| | | |] eqn:E2; cbn [bind]; try discriminate.
    destruct (nuclide_quiet p1 nu p2 E2) as ((s & ->) & Hin).
    destruct (Hin c m) as (a & Ha); [congruence|auto|].
    destruct (NM c m nu a Hc Em Ha) as (n & mg & D & C & S & W & P).
    destruct (P g Hg) as [Pt Pf]. pose proof Hg as Hg'. rewrite <- W in Hg'.
    set (p2 := set_rng p1 s).
    assert (Eg2 : p_energy p2 = Group g) by (cbn; congruence).
    assert (At : nu_at nu p2 = Ok (IMultigroup mg)).
    { apply nu_multigroup. change (p_type p2) with (p_type p1). rewrite Y1, T1. exact D. }
    assert (Pt' : 0 < sigma X n Rcapture g + sigma X n Rscatter g + sigma X n Rfission g) by lra.
    destruct (C24_reaction_choice_proof Given X n mg p2 g V C S Hg' Eg2 Pt')
      as (v & q' & _ & Hv & Ei & _ & _ & Fi & Ev).
    unfold nu_interact. rewrite At. cbn [bind]. rewrite Ei. cbn [noexcept]. intros H. injection H as <-.
    rewrite <- S1. change (p_secondaries p1) with (p_secondaries p2).
    destruct Ev as [Ev|[Ev|Ev]].
    - exact (capture_secondaries Given X n mg p2 q' g V C S Hg' Eg2 Pt' Ei Ev).
    - now destruct (C25_scatter_groups_proof Given X n mg p2 q' g V C S Hg' Eg2 Pt' Ei Ev)
        as (v3 & h & _ & Hh & Eh & _ & _ & _ & Uq & _ & Sq).
    - exfalso. apply Fi in Ev. rewrite Pf in *. lra.
  Qed.

  Lemma cross_quiet t s d p q : cross_surface t w s d p = Ok q -> p_secondaries q = p_secondaries p.
  Proof.
    unfold cross_surface. destruct (stream t p _) as [p1| | | |] eqn:E; cbn [bind]; try discriminate.
    destruct (find_cell w _); cbn [bind]; try discriminate. intros H. injection H as <-.
    cbn. now apply (stream_quiet t _ _ _ E).
  Qed.

  Lemma step_quiet t fuel p q : live p -> transport_step t fuel w p = Ok q -> p_secondaries q = p_secondaries p.
  Proof.
    intros L. destruct (distance_live Given V X Gs w MW t p L) as (d & Hd & Ed).
    pose proof L as [Hn (c & m & Ec & Hc & Em)].
    set (p1 := set_rng p (snd (runif Given (p_rng p)))) in *.
    assert (N1 : forall s, group_neutron Gs (set_rng p s)) by (intros s; destruct Hn; constructor; auto).
    destruct t; cbn [transport_step]; [unfold surface_step|unfold delta_step];
      change (num XRa) with xr in *; rewrite Ed; cbn [bind];
      (replace (get_cell p1) with (Ok c) by (unfold get_cell; cbn; rewrite Ec; reflexivity)); cbn [bind];
      (destruct (nearest_surface c _ _) as [[s ds]| | | |]; cbn [bind]; try discriminate).
    - destruct (nltb XRa (Fin d) ds); intros H.
      + exact (collide_quiet _ _ p1 _ _ c m (N1 _) Ec Hc Em H).
      + exact (cross_quiet _ _ _ p1 _ H).
    - destruct (nltb XRa ds (Fin d)); [intros H; exact (cross_quiet _ _ _ p1 _ H)|].
      destruct (get_material p1); cbn [bind]; try discriminate.
      destruct (mat_total _ p1); cbn [bind]; try discriminate.
      destruct (mat_majorant _ p1); cbn [bind]; try discriminate.
      destruct (bernoulli Given _ (p_rng p1)) as [real s']. destruct real.
      + intros H. exact (collide_quiet _ _ (set_rng p1 s') _ _ c m (N1 _) Ec Hc Em H).
      + destruct (stream CellDeltaTracking _ _) as [p3| | | |] eqn:E3; cbn [bind]; try discriminate.
        intros H. injection H as <-. cbn. now apply (stream_quiet _ _ _ _ E3).
  Qed.

  Lemma loop_quiet {E : Type} (score : E -> particle XRa Given -> outcome E) t :
    forall fuel e p e' q, (is_alive p = true -> live p) ->
    transport_loop score t fuel w e p = Ok (e', q) -> p_secondaries q = p_secondaries p.
  Proof.
    induction fuel as [|fuel IH]; intros e p e' q L; cbn [transport_loop];
      destruct (is_alive p) eqn:Al; try discriminate; try (intros H; injection H as _ <-; reflexivity).
    specialize (L eq_refl).
    destruct (step_live Given V X Gs w MW PG t fuel p L) as (p1 & E1 & St & _). rewrite E1. cbn [bind].
    destruct (score e p1) as [e1| | | |]; cbn [bind]; try discriminate. intros H.
    rewrite <- (step_quiet t fuel p p1 L E1). apply (IH e1 p1 e' q); auto. apply (sp_neutron _ _ _ _ _ St).
  Qed.
End Quiet.

Lemma C100_history_proof :
  forall (X : Ext XRa) (Gs : list N) (dr : driver (A := XRa)),
  multigroup_world X Gs (dr_world dr) -> plain_geometry (dr_world dr) -> bounded_cells (dr_world dr) ->
  non_multiplying X Gs (dr_world dr) ->
  exists q, 0 <= q < 1 /\
  forall (E : Type) (score : E -> particle XRa Given -> outcome E) (e : E) (p : particle XRa Given) c m,
  (forall e x, exists e', score e x = Ok e') ->
  group_neutron Gs p -> p_secondaries p = [] ->
  first_cell (dr_world dr) (p_position p) c -> c_material c = Some m ->
  forall F n, (7 * F <= n)%nat ->
    at_most n (fun l => ~ exists e', bank_loop score dr (S F) e [set_rng p l] = Ok e')
      (q ^ (F / (2 * length (sides (dr_world dr))))).
Proof.
  intros X Gs dr MW PG BC NM.
  destruct (C100_leaks_proof X Gs (dr_world dr) MW PG BC) as (q & Hq & H). exists q. split; auto.
  intros E score e p c m Hs Hn Sp Fc Em F n HF.
  assert (Hn' : group_neutron Gs (set_perturbations (dr_perts dr) p)) by (destruct Hn; constructor; auto).
  eapply at_most_mono; [|apply Rle_refl|
    exact (H E score (dr_tracking dr) e (set_perturbations (dr_perts dr) p) c m Hs Hn' Fc Em F n HF)].
  intros l _ _ Not (e' & q' & Et). apply Not. exists e'.
  cbn [bank_loop rev app].
  change (set_perturbations (dr_perts dr) (set_rng p l)) with (set_rng (set_perturbations (dr_perts dr) p) l).
  rewrite Et. cbn [bind].
  enough (Sq : p_secondaries q' = []) by (rewrite Sq; destruct F; reflexivity).
  unfold transport in Et. destruct (find_cell (dr_world dr) _) as [c'| | | |] eqn:Ef; try discriminate.
  cbn [bind] in Et.
  destruct (transport_loop score (dr_tracking dr) F (dr_world dr) e _) as [[e1 q1]| | | |] eqn:El; try discriminate.
  cbn [noexcept] in Et. injection Et as -> ->.
  apply (loop_quiet X Gs (dr_world dr) MW PG NM score (dr_tracking dr)) in El.
  - rewrite El. cbn. exact Sp.
  - intros _. destruct (gn_position _ _ Hn) as (x & Ex).
    change (find_cell (dr_world dr) (p_position p) = Ok c') in Ef. rewrite Ex in *.
    destruct (find_cell_total (dr_world dr) PG x) as (c2 & Ec2 & Fc2 & _). rewrite Ec2 in Ef. injection Ef as <-.
    rewrite (first_cell_unique _ _ _ _ Fc Fc2).
    constructor; [destruct Hn'; constructor; auto|]. exists c, m. repeat split; auto.
    now apply first_cell_in in Fc.
Qed.

(** ** An example: a ball that only scatters *)

Definition bouncy_document : node :=
  document [Elem "nuclides" [] [Elem "multigroup" [("groups", "1")]
    [Elem "nuclide" [("name", "bouncy")]
       [Elem "neutron" [] [text_node "scatter" "1"] ""] ""] ""] ""]%string.
Definition bouncy_node : node :=
  n_child (n_child (n_child (n_child bouncy_document "nuclides") "multigroup") "nuclide") "neutron".
Definition bouncy_data : multigroup XRa :=
  match multigroup_create slab_ext bouncy_node with
  | Ok m => m
  | _ => mkMultigroup (A := XRa) None None None [] [] 0
  end.
Lemma bouncy_created : multigroup_create slab_ext bouncy_node = Ok bouncy_data.
Proof. reflexivity. Qed.
Lemma bouncy_groups : groups (written_groups slab_ext bouncy_node) = [1]%N.
Proof. reflexivity. Qed.
Lemma bouncy_sensible : sensible_data slab_ext bouncy_node.
Proof.
  constructor.
  - intros c Hc N. cbn in Hc.
    repeat (destruct Hc as [<-|Hc];
      [first [ exfalso; apply N; reflexivity
             | cbn; repeat constructor; eexists; (split; [reflexivity|decs; lra]) ]|]).
    destruct Hc.
  - intros N. exfalso. apply N. reflexivity.
  - cbn. repeat constructor; cbn; decs; lra.
  - reflexivity.
Qed.
Lemma bouncy_sigma : sigma slab_ext bouncy_node Rcapture 1 = 0
  /\ sigma slab_ext bouncy_node Rscatter 1 = 1 /\ sigma slab_ext bouncy_node Rfission 1 = 0.
Proof.
  unfold sigma, column_sum, column_below, weight, written_xs.
  rewrite ?bouncy_groups; cbn; unfold Pos.to_nat; cbn; decs. repeat split; lra.
Qed.
Definition bouncy_nuclide : nuclide XRa := mkNuclide 0 "bouncy" [(neutron, IMultigroup bouncy_data)].
Definition bouncy_material : material XRa :=
  mkMaterial (A := XRa) "bouncy" [(bouncy_nuclide, Fin 1)] (Fin 1).
Definition shell : surf XRa := mkSurf 0 (mkSurface "shell" (Sphere (pt (V3 0 0 0)) (Fin 3))).
Definition ball : cell XRa := mkCell 0 "ball" [(shell, true)] (Some bouncy_material) warmth.
Definition beyond : cell XRa := mkCell 1 "" [(shell, false)] None warmth.
Definition ball_world : world XRa :=
  mkWorld [shell] [bouncy_nuclide] [bouncy_material] warmth [ball; beyond].

Lemma C100_leaks_example :
  multigroup_world slab_ext [1]%N ball_world /\ plain_geometry ball_world /\ bounded_cells ball_world
  /\ group_neutron [1]%N mixed_neutron /\ first_cell ball_world (p_position mixed_neutron) ball
  /\ c_material ball = Some bouncy_material
  /\ sigma slab_ext bouncy_node Rcapture 1 = 0 /\ non_multiplying slab_ext [1]%N ball_world.
Proof.
  assert (Side : forall c b x, In (shell, b) (c_senses c) -> length (c_senses c) = 1%nat ->
    contains (s_shape (su_surface shell)) (pt x) = b -> CellSpec.inside c (pt x)).
  { intros c b x Hin Hl H s b' Hs. destruct (c_senses c) as [|h [|h' tl']]; try discriminate.
    destruct Hin as [->|[]]. destruct Hs as [E|[]]. injection E as <- <-. exact H. }
  split; [|split; [|split; [|split; [|split; [|split; [reflexivity|]]]]]].
  - intros c m [<-|[<-|[]]] Em; [|discriminate]. injection Em as <-.
    split; [exists 1; split; [reflexivity|lra]|]. split; [discriminate|].
    intros nu a [H|[]]. injection H as <- <-. split; [exists 1; split; [reflexivity|lra]|].
    exists bouncy_node, bouncy_data. split; [reflexivity|]. split; [exact bouncy_created|].
    split; [exact bouncy_sensible|]. split; [exact bouncy_groups|].
    intros g [<-|[]]. destruct bouncy_sigma as (-> & -> & ->). lra.
  - constructor.
    + intros c s [<-|[<-|[]]] [b' [H|[]]]; injection H as <- _; cbn; constructor; lra.
    + intros c m [<-|[<-|[]]] _; discriminate.
    + intros x. destruct (contains (s_shape (su_surface shell)) (pt x)) eqn:H.
      * exists ball. split; [now left|]. apply (Side ball true); auto. now left.
      * exists beyond. split; [right; now left|]. apply (Side beyond false); auto. now left.
  - intros c m [<-|[<-|[]]] Em; [|discriminate]. exists shell, (V3 0 0 0), 3. split; [now left|reflexivity].
  - constructor; [reflexivity| | |].
    + exists 1%N. split; [reflexivity|now left].
    + eexists. reflexivity.
    + exists (V3 1 0 0). split; [reflexivity|]. apply unit_dot. unfold dot; cbn; ring.
  - exists [], [beyond]. split; [reflexivity|]. split; [|intros c' []].
    apply (Side ball true (V3 0 0 0)); auto; [now left|].
    cbn [su_surface shell s_shape]. rewrite sphere_contains. apply Rltb_true. unfold dot, vsub; cbn. lra.
  - destruct bouncy_sigma as (H1 & H2 & H3). split; [exact H1|].
    intros c m nu a [<-|[<-|[]]] Em; [|discriminate]. injection Em as <-. intros [H|[]]. injection H as <- <-.
    exists bouncy_node, bouncy_data. split; [reflexivity|]. split; [exact bouncy_created|].
    split; [exact bouncy_sensible|]. split; [exact bouncy_groups|].
    intros g [<-|[]]. rewrite H1, H2, H3. lra.
Qed.
