(** An isotropic source in an absorbing plate: property C109. *)
From Coq Require Import Bool String List Reals ZArith NArith Lra Lia.
From Coquelicot Require Import Coquelicot.
From Verif Require Import Model.Num Model.Outcome Model.Rng Model.Xml Model.Std Model.Point
  Model.Surface Model.Types Model.Field Model.Particle Model.Multigroup
  Model.Material Model.World Model.Perturbation Model.Transport Model.Driver
  Spec.Vec Spec.GeometrySpec Spec.DirectionSpec Spec.RngSpec Spec.SumSpec
  Spec.MultigroupSpec Spec.MaterialSpec Spec.TransportSpec Spec.ChanceSpec
  Spec.CollisionSpec Spec.StepSpec Spec.AbsorbSpec Spec.LayerSpec Spec.DepthSpec Spec.BallSpec Spec.PlateSpec
  Proofs.OutcomeLib Proofs.RealLib Proofs.RngProofs Proofs.GeometryProofs Proofs.DirectionProofs
  Proofs.CrossingProofs Proofs.ChanceLib Proofs.FlightLaw Proofs.CollisionLaw Proofs.BirthLaw Proofs.IsotropyLaw
  Proofs.StepLaw Proofs.AbsorbLaw Proofs.LayerLaw Proofs.BallLaw Proofs.DepthLaw Proofs.SampleProblem.
Import ListNotations.
Local Open Scope R_scope.

(** The chance that a history of one step is counted at a surface. *)
Lemma counted_chance X Gs doc m w c c' g o v d D k s t fuel (p : particle XRa Given) id more :
  mixture X Gs doc m -> absorbs X doc m g -> group_neutron Gs p -> p_energy p = Group g -> is_alive p = true ->
  p_cell p = Some c -> c_material c = Some m -> m_density m = Fin d -> p_position p = pt o -> p_direction p = pt v ->
  0 <= D -> nearest_surface c (pt o) (pt v) = Ok (s, Fin D) ->
  nudge (A := XRa) = Fin k -> find_cell w (pt (along o v (D + k))) = Ok c' -> c_material c' = None ->
  chance (1 + more)
    (fun l => match noexcept (transport_loop (A := XRa) (fun tr q => Ok (tr ++ [q])%list) t (S fuel) w [] (set_rng p l)) with
              | Ok (seen, _) => Nat.eqb (length (filter (EstimatorSpec.crossed id) seen)) 1
              | _ => false
              end)
    (if Nat.eqb (su_id s) id then exp (- (d * mixed_sum doc m (any_reaction X g) * D)) else 0).
Proof.
  intros M Ab N0 Eg Al Ec Em Hd Eo Ev HD Es Ek Fc Nc.
  pose proof (mu_pos X Gs doc m p g d M N0 Eg Hd) as Pm.
  set (x := exp (- (d * mixed_sum doc m (any_reaction X g) * D))).
  assert (Bx : 0 < x <= 1) by (apply (exp_small _ D Pm); lra).
  set (b := Nat.eqb (su_id s) id).
  exists (fun z => if Rlt_dec z (1 - x) then 0 else (if b then 1 else 0)), [1 - x]. split.
  - intros z Hz Nz. assert (Ne : z <> 1 - x) by (intros ->; apply Nz; now left).
    match goal with |- chance _ ?F _ => assert (Tr : forall l, F l = if Rlt_dec z (1 - x) then false else b) end.
    { intros l. cbv beta.
      destruct (one_seen X Gs doc m w c c' g o v d D k s t fuel p M Ab N0 Eg Al Ec Em Hd Eo Ev
        Es Ek Fc Nc z l Hz Ne) as (q & Eq & R).
      change (num XRa) with xr in *. rewrite Eq. cbn [noexcept filter length]. fold x in R.
      unfold EstimatorSpec.crossed. destruct (Rlt_dec z (1 - x)).
      - rewrite R. now destruct (p_surface q).
      - destruct R as [R1 R2]. rewrite R1, R2. fold b. now destruct b. }
    destruct (Rlt_dec z (1 - x)).
    + now apply (chance_sure more _ false).
    + now apply (chance_sure more _ b).
  - replace (if b then x else 0) with ((1 - x) * 0 + (1 - (1 - x)) * (if b then 1 else 0)) by (destruct b; ring).
    apply integral_chasles with (1 - x).
    + apply (integral_ext (fun _ => 0)); [lra| |apply integral_is; destruct b; ring].
      intros z Hz. destruct (Rlt_dec z (1 - x)); [reflexivity|lra].
    + apply (integral_ext (fun _ => if b then 1 else 0)); [lra| |apply integral_is; destruct b; ring].
      intros z Hz. destruct (Rlt_dec z (1 - x)); [lra|reflexivity].
Qed.

(** From an integral over cosines to one over random numbers. *)
Lemma right_half f x : integral f 0 1 x ->
  integral (fun u => if Rlt_dec u (/ 2) then 0 else f (2 * u - 1)) 0 1 (x / 2).
Proof.
  intros I. replace (x / 2) with (0 + x / 2) by ring. apply integral_chasles with (/ 2).
  - apply (integral_ext (fun _ => 0)); [lra| |apply integral_is; ring].
    intros u Hu. destruct (Rlt_dec u (/ 2)); [reflexivity|lra].
  - apply (integral_ext (fun u => f (2 * u - 1))); [lra| |].
    + intros u Hu. destruct (Rlt_dec u (/ 2)); [lra|reflexivity].
    + assert (J : integral (fun u => 2 * f (2 * u + -1)) (/ 2) 1 x).
      { apply (is_RInt_comp_lin (V := R_NormedModule) f 2 (-1) (/ 2) 1 x).
        replace (2 * / 2 + -1) with 0 by field. replace (2 * 1 + -1) with 1 by ring. exact I. }
      apply (is_RInt_scal (V := R_NormedModule) _ _ _ (/ 2)) in J.
      replace (x / 2) with (/ 2 * x) by field.
      eapply integral_ext; [lra| |exact J]. intros u _. cbv beta. unfold scal. cbn. unfold mult. cbn.
      replace (2 * u + -1) with (2 * u - 1) by ring. field.
Qed.
Lemma left_half f x : integral f 0 1 x ->
  integral (fun u => if Rlt_dec u (/ 2) then f (1 - 2 * u) else 0) 0 1 (x / 2).
Proof.
  intros I. replace (x / 2) with (x / 2 + 0) by ring. apply integral_chasles with (/ 2).
  - apply (integral_ext (fun u => f (1 - 2 * u))); [lra| |].
    + intros u Hu. destruct (Rlt_dec u (/ 2)); [reflexivity|lra].
    + assert (J : integral (fun u => -2 * f (-2 * u + 1)) 0 (/ 2) (- x)).
      { apply (is_RInt_comp_lin (V := R_NormedModule) f (-2) 1 0 (/ 2) (- x)).
        replace (-2 * 0 + 1) with 1 by ring. replace (-2 * / 2 + 1) with 0 by field.
        exact (is_RInt_swap (V := R_NormedModule) f 1 0 x I). }
      apply (is_RInt_scal (V := R_NormedModule) _ _ _ (- / 2)) in J.
      replace (x / 2) with (- / 2 * - x) by field.
      eapply integral_ext; [lra| |exact J]. intros u _. cbv beta. unfold scal. cbn. unfold mult. cbn.
      replace (-2 * u + 1) with (1 - 2 * u) by ring. field.
  - apply (integral_ext (fun _ => 0)); [lra| |apply integral_is; ring].
    intros u Hu. destruct (Rlt_dec u (/ 2)); [lra|reflexivity].
Qed.

(** The integral exists. *)
Lemma slanted_exists y : 0 < y -> exists x, integral (fun mu => exp (- (y / mu))) 0 1 x.
Proof.
  intros Hy. set (h := fun mu => if Rlt_dec 0 mu then exp (- (y / mu)) else 0).
  assert (C : ex_RInt (V := R_CompleteNormedModule) h 0 1).
  { apply (ex_RInt_continuous (V := R_CompleteNormedModule)). intros z _.
    destruct (Rtotal_order z 0) as [L|[->|L]].
    - apply (continuous_ext_loc _ (fun _ => 0)); [|apply continuous_const].
      assert (P : 0 < - z) by lra. exists (mkposreal _ P). intros u Hu.
      unfold h. destruct (Rlt_dec 0 u) as [U|]; [|reflexivity]. exfalso.
      unfold Hierarchy.ball in Hu. cbn in Hu. unfold AbsRing_ball, abs, minus, plus, opp in Hu. cbn in Hu.
      apply Rabs_def2 in Hu. lra.
    - apply continuity_pt_filterlim. intros e He. exists (e * y). split; [unfold Rgt in *; now apply Rmult_lt_0_compat|].
      intros u [_ Hu]. cbn in *. unfold R_dist in *. rewrite Rminus_0_r in Hu.
      unfold h at 2. destruct (Rlt_dec 0 0); [lra|]. rewrite Rminus_0_r.
      unfold h. destruct (Rlt_dec 0 u) as [U|]; [|rewrite Rabs_R0; lra].
      rewrite (Rabs_right u) in Hu by lra. rewrite Rabs_right by (apply Rle_ge, Rlt_le, exp_pos).
      assert (Q : 0 < y / u) by now apply Rdiv_lt_0_compat.
      assert (X : y / u < exp (y / u)) by (pose proof (exp_ineq1 (y / u) ltac:(lra)); lra).
      rewrite exp_Ropp. apply Rlt_trans with (u / y).
      + replace (u / y) with (/ (y / u)) by (field; lra). apply Rinv_lt_contravar; auto.
        apply Rmult_lt_0_compat; auto. apply exp_pos.
      + apply Rmult_lt_reg_r with y; auto. replace (u / y * y) with u by (field; lra). exact Hu.
    - apply (continuous_ext_loc _ (fun mu => exp (- (y / mu)))).
      + exists (mkposreal _ L). intros u Hu. unfold h. destruct (Rlt_dec 0 u) as [|U]; [reflexivity|]. exfalso.
        unfold Hierarchy.ball in Hu. cbn in Hu. unfold AbsRing_ball, abs, minus, plus, opp in Hu. cbn in Hu.
        apply Rabs_def2 in Hu. lra.
      + apply (ex_derive_continuous (V := R_NormedModule) (fun mu => exp (- (y / mu)))).
        auto_derive. lra. }
  destruct C as [x I]. exists x. eapply integral_ext; [lra| |exact I].
  intros u Hu. unfold h. destruct (Rlt_dec 0 u); [reflexivity|lra].
Qed.

(** The way out in a direction with cosine [2 * u - 1]. *)
Lemma plate_way w c before after a b o v u k : plate w c before after a b -> a < vx o < b -> 0 < k ->
  0 < u < 1 -> u <> / 2 -> vx v = 2 * u - 1 ->
  exists s D c', nearest_surface c (pt o) (pt v) = Ok (s, Fin D) /\ 0 < D
    /\ find_cell w (pt (along o v (D + k))) = Ok c' /\ c_material c' = None
    /\ (if Rlt_dec u (/ 2) then s = before /\ D = (vx o - a) / (1 - 2 * u) else s = after /\ D = (b - vx o) / (2 * u - 1)).
Proof.
  intros B Ho Hk Hu Nu Vx. destruct B as [Bc Bi Bb Ba Bin Bout].
      unfold nearest_surface. rewrite Bc. cbn [min_surface]. unfold su_distance. rewrite Bb, Ba, !planex_distance, Vx.
      rewrite !Reqb_false by lra. destruct (Rlt_dec u (/ 2)) as [L|L].
      - assert (P1 : 0 < (a - vx o) / (2 * u - 1)).
        { replace ((a - vx o) / (2 * u - 1)) with ((vx o - a) / (1 - 2 * u)) by (field; lra). apply Rdiv_lt_0_compat; lra. }
        assert (P2 : (b - vx o) / (2 * u - 1) < 0).
        { replace ((b - vx o) / (2 * u - 1)) with (- ((b - vx o) / (1 - 2 * u))) by (field; lra).
          assert (0 < (b - vx o) / (1 - 2 * u)) by (apply Rdiv_lt_0_compat; lra). lra. }
        rewrite (Rltb_true 0 ((a - vx o) / (2 * u - 1))) by lra. rewrite (Rltb_false 0 ((b - vx o) / (2 * u - 1))) by lra.
        destruct (Bout (along o v ((a - vx o) / (2 * u - 1) + k))) as (c' & F & V).
        { left. unfold along, vadd, vscale. cbn [vx]. rewrite Vx.
          replace (vx o + ((a - vx o) / (2 * u - 1) + k) * (2 * u - 1)) with (a + k * (2 * u - 1)) by (field; lra). nra. }
        exists before, ((a - vx o) / (2 * u - 1)), c'. cbn. rewrite Bb, planex_distance, Vx, Reqb_false by lra.
        rewrite Rltb_true by lra. split; [reflexivity|]. split; [lra|]. split; [exact F|]. split; [exact V|].
        split; [reflexivity|field; lra].
      - assert (P1 : 0 < (b - vx o) / (2 * u - 1)) by (apply Rdiv_lt_0_compat; lra).
        assert (P2 : (a - vx o) / (2 * u - 1) < 0).
        { replace ((a - vx o) / (2 * u - 1)) with (- ((vx o - a) / (2 * u - 1))) by (field; lra).
          assert (0 < (vx o - a) / (2 * u - 1)) by (apply Rdiv_lt_0_compat; lra). lra. }
        rewrite (Rltb_true 0 ((b - vx o) / (2 * u - 1))) by lra. rewrite (Rltb_false 0 ((a - vx o) / (2 * u - 1))) by lra.
        destruct (Bout (along o v ((b - vx o) / (2 * u - 1) + k))) as (c' & F & V).
        { right. unfold along, vadd, vscale. cbn [vx]. rewrite Vx.
          replace (vx o + ((b - vx o) / (2 * u - 1) + k) * (2 * u - 1)) with (b + k * (2 * u - 1)) by (field; lra). nra. }
        exists after, ((b - vx o) / (2 * u - 1)), c'. cbn. rewrite Ba, planex_distance, Vx, Reqb_false by lra.
        rewrite Rltb_true by lra. split; [reflexivity|]. split; [lra|]. split; [exact F|]. split; [exact V|].
        split; reflexivity.
Qed.

Lemma C109_plate_proof :
  forall (X : Ext XRa) (Gs : list N) (doc : nuclide XRa -> node) (m : material XRa) (w : world XRa) (c : cell XRa)
    (before after : surf XRa) (g : N) (o : vec) (d a b : R) (t : tracking) (fuel more : nat),
  mixture X Gs doc m -> absorbs X doc m g -> In g Gs ->
  c_material c = Some m -> m_density m = Fin d -> plate w c before after a b -> a < vx o < b ->
  let S := d * mixed_sum doc m (fun n => sigma X n Rcapture g) in
  (exists x, is_RInt (V := R_NormedModule) (fun mu => exp (- (S * (b - vx o) / mu))) 0 1 x
    /\ chance (3 + more) (fun l => tallied t (1 + fuel) w (su_id after) 1 (isotropic_neutron o g l)) (x / 2))
  /\ (exists x, is_RInt (V := R_NormedModule) (fun mu => exp (- (S * (vx o - a) / mu))) 0 1 x
    /\ chance (3 + more) (fun l => tallied t (1 + fuel) w (su_id before) 1 (isotropic_neutron o g l)) (x / 2)).
Proof.
  intros X Gs doc m w c before after g o d a b t fuel more M Ab Hg Em Hd B Ho S.
  assert (All : mixed_sum doc m (fun n => sigma X n Rcapture g) = mixed_sum doc m (any_reaction X g)).
  { apply mixed_ext. intros nu a' Hin. destruct (Ab nu a' Hin) as [A1 A2]. unfold any_reaction. rewrite A1, A2. ring. }
  destruct nudge_fin as (k & Ek & Hk).
  assert (N0 : forall v, unit v -> group_neutron Gs (set_cell (new_particle (G := Given) (pt o) (pt v) (Group g) neutron 1 None) c)).
  { intros v U. constructor.
    - reflexivity.
    - exists g. split; [reflexivity|exact Hg].
    - exists o. reflexivity.
    - exists v. split; [reflexivity|exact U]. }
  assert (Ps : 0 < S).
  { unfold S. rewrite All.
    refine (mu_pos X Gs doc m _ g d M (N0 (V3 1 0 0) _) eq_refl Hd).
    unfold unit, norm, dot. cbn. replace (1 * 1 + 0 * 0 + 0 * 0) with 1 by ring. apply sqrt_1. }
  (* the chance for a direction that is given *)
  assert (K : forall id u y, 0 < u < 1 -> 0 < y < 1 -> u <> / 2 ->
    chance (1 + more) (fun l => tallied t (1 + fuel) w id 1 (isotropic_neutron o g (u :: y :: l)))
      (if Rlt_dec u (/ 2) then (if Nat.eqb (su_id before) id then exp (- (S * (vx o - a) / (1 - 2 * u))) else 0)
       else (if Nat.eqb (su_id after) id then exp (- (S * (b - vx o) / (2 * u - 1))) else 0))).
  { intros id u y Hu Hy Nu.
    destruct (dir_isotropic_pt Given [u; y] (open_valid _ given_open)) as (v & Ev & U).
    assert (Vx : vx v = 2 * u - 1).
    { destruct (C70_isotropic_direction_proof Given [u; y] (open_valid _ given_open)) as (u' & y' & Eu & _ & _ & _ & Ed & _).
      cbn in Eu. rewrite inside_is in Eu by auto. injection Eu as <-.
      cbn zeta in Ed. rewrite Ed in Ev. injection Ev as <- _ _. ring. }
    set (p := set_cell (new_particle (G := Given) (pt o) (pt v) (Group g) neutron 1 None) c).
    assert (Ei : forall l, tallied t (1 + fuel) w id 1 (isotropic_neutron o g (u :: y :: l))
      = match noexcept (transport_loop (A := XRa) (fun tr q => Ok (tr ++ [q])%list) t (Datatypes.S fuel) w [] (set_rng p l)) with
        | Ok (seen, _) => Nat.eqb (length (filter (EstimatorSpec.crossed id) seen)) 1
        | _ => false
        end).
    { intros l. assert (E0 : isotropic_neutron o g (u :: y :: l)
        = set_rng (new_particle (G := Given) (pt o) (pt v) (Group g) neutron 1 None) l).
      { unfold isotropic_neutron. cbn [sample_direction]. rewrite <- Ev. reflexivity. }
      rewrite E0. unfold tallied, transport. cbn [p_position set_rng new_particle].
      change (num XRa) with xr in *. rewrite (pl_inside _ _ _ _ _ _ B o Ho). cbn [bind]. reflexivity. }
    assert (Q : exists s D c', nearest_surface c (pt o) (pt v) = Ok (s, Fin D) /\ 0 < D
      /\ find_cell w (pt (along o v (D + k))) = Ok c' /\ c_material c' = None
      /\ (if Rlt_dec u (/ 2) then s = before /\ D = (vx o - a) / (1 - 2 * u) else s = after /\ D = (b - vx o) / (2 * u - 1))).
    { now apply (plate_way w c before after a b o v u k B). }
    destruct Q as (s & D & c' & Es & HD & Fc & Nc & Sd).
    eapply chance_ext; [intros l; symmetry; apply Ei|].
    replace (if Rlt_dec u (/ 2) then _ else _)
      with (if Nat.eqb (su_id s) id then exp (- (d * mixed_sum doc m (any_reaction X g) * D)) else 0).
    - exact (counted_chance X Gs doc m w c c' g o v d D k s t fuel p id more M Ab (N0 v U) eq_refl eq_refl eq_refl
        Em Hd eq_refl eq_refl (Rlt_le _ _ HD) Es Ek Fc Nc).
    - rewrite <- All. fold S. destruct (Rlt_dec u (/ 2)); destruct Sd as [-> ->].
      + replace (S * ((vx o - a) / (1 - 2 * u))) with (S * (vx o - a) / (1 - 2 * u)) by (field; lra). reflexivity.
      + replace (S * ((b - vx o) / (2 * u - 1))) with (S * (b - vx o) / (2 * u - 1)) by (field; lra). reflexivity. }
  pose proof (pl_ids _ _ _ _ _ _ B) as Ni.
  split.
  - destruct (slanted_exists (S * (b - vx o)) ltac:(apply Rmult_lt_0_compat; lra)) as [x I].
    exists x. split; [exact I|]. eexists. exists [/ 2]. split; [|exact (right_half _ _ I)].
    intros u Hu Nu. apply (chance_any (1 + more)). intros y Hy.
    pose proof (K (su_id after) u y Hu Hy ltac:(intros ->; apply Nu; now left)) as H.
    rewrite Nat.eqb_refl, (proj2 (Nat.eqb_neq _ _) Ni) in H. exact H.
  - destruct (slanted_exists (S * (vx o - a)) ltac:(apply Rmult_lt_0_compat; lra)) as [x I].
    exists x. split; [exact I|]. eexists. exists [/ 2]. split; [|exact (left_half _ _ I)].
    intros u Hu Nu. apply (chance_any (1 + more)). intros y Hy.
    pose proof (K (su_id before) u y Hu Hy ltac:(intros ->; apply Nu; now left)) as H.
    rewrite Nat.eqb_refl, (proj2 (Nat.eqb_neq _ _) (fun e => Ni (eq_sym e))) in H. exact H.
Qed.

Lemma C109_captured_proof :
  forall (X : Ext XRa) (Gs : list N) (doc : nuclide XRa -> node) (m : material XRa) (w : world XRa) (c : cell XRa)
    (before after : surf XRa) (g : N) (o : vec) (d a b : R) (t : tracking) (fuel more : nat)
    (E : Type) (score : E -> particle XRa Given -> outcome E) (e : E),
  mixture X Gs doc m -> absorbs X doc m g -> In g Gs ->
  c_material c = Some m -> m_density m = Fin d -> plate w c before after a b -> a < vx o < b ->
  (forall e' q, exists e'', score e' q = Ok e'') ->
  let S := d * mixed_sum doc m (fun n => sigma X n Rcapture g) in
  exists x y, is_RInt (V := R_NormedModule) (fun mu => exp (- (S * (b - vx o) / mu))) 0 1 x
    /\ is_RInt (V := R_NormedModule) (fun mu => exp (- (S * (vx o - a) / mu))) 0 1 y
    /\ chance (3 + more)
         (fun l => comes_to (last_state (transport (A := XRa) score t (1 + fuel) w e (isotropic_neutron o g l)))
                     (captured_in (c_id c)))
         (1 - (x / 2 + y / 2)).
Proof.
  intros X Gs doc m w c before after g o d a b t fuel more E score e M Ab Hg Em Hd B Ho Sc S.
  destruct (C109_plate_proof X Gs doc m w c before after g o d a b t fuel more M Ab Hg Em Hd B Ho) as ((x & Ix & _) & (y & Iy & _)).
  fold S in Ix, Iy. exists x, y. split; [exact Ix|]. split; [exact Iy|].
  destruct nudge_fin as (k & Ek & Hk).
  exists (fun u => 1 - ((if Rlt_dec u (/ 2) then 0 else exp (- (S * (b - vx o) / (2 * u - 1))))
                        + (if Rlt_dec u (/ 2) then exp (- (S * (vx o - a) / (1 - 2 * u))) else 0))), [/ 2].
  split.
  - intros u Hu Nu. assert (Ne : u <> / 2) by (intros ->; apply Nu; now left).
    apply (chance_any (1 + more)). intros z Hz.
    destruct (dir_isotropic_pt Given [u; z] (open_valid _ given_open)) as (v & Ev & U).
    assert (Vx : vx v = 2 * u - 1).
    { destruct (C70_isotropic_direction_proof Given [u; z] (open_valid _ given_open)) as (u' & y' & Eu & _ & _ & _ & Ed & _).
      cbn in Eu. rewrite inside_is in Eu by auto. injection Eu as <-.
      cbn zeta in Ed. rewrite Ed in Ev. injection Ev as <- _ _. ring. }
    set (p := new_particle (G := Given) (pt o) (pt v) (Group g) neutron 1 None).
    assert (Ei : forall l, isotropic_neutron o g (u :: z :: l) = set_rng p l).
    { intros l. unfold isotropic_neutron. cbn [sample_direction]. unfold p. rewrite <- Ev. reflexivity. }
    destruct (plate_way w c before after a b o v u k B Ho Hk Hu Ne Vx) as (s & D & c' & Es & HD & Fc & Nc & Sd).
    assert (V : 1 - ((if Rlt_dec u (/ 2) then 0 else exp (- (S * (b - vx o) / (2 * u - 1))))
                     + (if Rlt_dec u (/ 2) then exp (- (S * (vx o - a) / (1 - 2 * u))) else 0))
                = exp (- Rsum (map snd (@nil (cell XRa * R)))) * (1 - exp (- (S * D)))).
    { cbn [map Rsum]. rewrite Ropp_0, exp_0. destruct (Rlt_dec u (/ 2)); destruct Sd as [_ ->].
      - replace (S * ((vx o - a) / (1 - 2 * u))) with (S * (vx o - a) / (1 - 2 * u)) by (field; lra). ring.
      - replace (S * ((b - vx o) / (2 * u - 1))) with (S * (b - vx o) / (2 * u - 1)) by (field; lra). ring. }
    rewrite V.
    eapply chance_ext; [intros l; cbv beta; rewrite Ei; reflexivity|].
    apply (C111_depth_proof X Gs doc w g o v c [] [] c (S * D) p t fuel more E score e).
    + constructor.
      * reflexivity.
      * exists g. split; [reflexivity|exact Hg].
      * exists o. reflexivity.
      * exists v. split; [reflexivity|exact U].
    + reflexivity.
    + reflexivity.
    + reflexivity.
    + reflexivity.
    + exact (pl_inside _ _ _ _ _ _ B o Ho).
    + apply (top_cell X Gs doc w g v o c (S * D) (along o v (D + k)) c'); [|exact Nc].
      exists m, d, D, k. do 6 (split; [assumption|]). split; [exists s; exact Es|]. split; [exact Ek|].
      split; [reflexivity|]. split; [exact Fc|reflexivity].
    + repeat constructor. intros [].
    + exact Sc.
  - pose proof (is_RInt_plus (V := R_NormedModule) _ _ _ _ _ _ (right_half _ _ Ix) (left_half _ _ Iy)) as P.
    exact (is_RInt_minus (V := R_NormedModule) _ _ _ _ _ _ (integral_is 0 1 1 1 ltac:(ring)) P).
Qed.

(** A plate of thickness two with the source in its middle. *)
Definition face : surf XRa := mkSurf 0 (mkSurface "face" (PlaneX (A := XRa) (Fin (-1)))).
Definition back : surf XRa := mkSurf 1 (mkSurface "back" (PlaneX (A := XRa) (Fin 1))).
Definition plate_cell : cell XRa := mkCell 0 "plate" [(face, false); (back, true)] (Some slab_material) warmth.
Definition plate_left : cell XRa := mkCell 1 "left" [(face, true)] None warmth.
Definition plate_right : cell XRa := mkCell 2 "right" [(back, false)] None warmth.
Definition plate_world : world XRa :=
  mkWorld [face; back] [slab_nuclide] [slab_material] warmth [plate_cell; plate_left; plate_right].

Lemma C109_example :
  mixture slab_ext [1]%N (fun _ => slab_node) slab_material /\ absorbs slab_ext (fun _ => slab_node) slab_material 1
  /\ In 1%N [1]%N /\ c_material plate_cell = Some slab_material /\ m_density slab_material = Fin 1
  /\ plate plate_world plate_cell face back (-1) 1 /\ -1 < vx (V3 0 0 0) < 1
  /\ 1 * mixed_sum (fun _ => slab_node) slab_material (fun n => sigma slab_ext n Rcapture 1) = 1.
Proof.
  destruct C106_example as (Mx & Ab & _ & _ & _ & _ & _ & _ & _ & _ & S1).
  split; [exact Mx|]. split; [exact Ab|]. split; [now left|]. do 2 (split; [reflexivity|]).
  split; [|cbn [vx]; split; [lra|rewrite S1; ring]].
  assert (F : forall x, su_contains face (pt x) = Rltb (vx x) (-1)) by (intros x; apply (planex_contains (-1))).
  assert (K : forall x, su_contains back (pt x) = Rltb (vx x) 1) by (intros x; apply (planex_contains 1)).
  constructor; try reflexivity.
  - discriminate.
  - intros x Hx. unfold find_cell. cbn [w_cells plate_world find]. unfold cell_contains.
    cbn [c_senses plate_cell forallb fst snd]. rewrite F, K. decide_reals. reflexivity.
  - intros x [Hx|Hx]; [exists plate_left|exists plate_right]; (split; [|reflexivity]);
      unfold find_cell; cbn [w_cells plate_world find]; unfold cell_contains;
      cbn [c_senses plate_cell plate_left plate_right forallb fst snd]; rewrite F, K; decide_reals; reflexivity.
Qed.
