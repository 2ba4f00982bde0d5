(** How directions are spread: property C104. *)
From Coq Require Import Bool List Reals ZArith NArith Lra Lia Psatz.
From Coquelicot Require Import Coquelicot.
From Verif Require Import Model.Num Model.Outcome Model.Rng Model.Xml Model.Std Model.Point
  Model.Types Model.Particle Model.Driver Spec.Vec Spec.RngSpec Spec.SumSpec Spec.DirectionSpec Spec.ChanceSpec
  Spec.IsotropySpec Proofs.RealLib Proofs.RngProofs Proofs.DirectionProofs Proofs.ChanceLib Proofs.CollisionLaw Proofs.BirthLaw.
Import ListNotations.
Local Open Scope R_scope.

Lemma chance_between n E a b x : 0 <= a -> a <= b -> b <= 1 ->
  (forall u, 0 < u < 1 -> a <= u < b -> chance n (fun l => E (u :: l)) x) ->
  (forall u, 0 < u < 1 -> ~ a <= u < b -> chance n (fun l => E (u :: l)) 0) ->
  chance (S n) E ((b - a) * x).
Proof.
  intros Ha Hab Hb H1 H2.
  replace ((b - a) * x)
    with (Rsum (map (fun y : nat => (match y with 0%nat => a | 1%nat => b - a | _ => 1 - b end)
                                     * (match y with 1%nat => x | _ => 0 end)) [0; 1; 2]%nat) / 1) by (cbn; field).
  apply chance_shares; [lra| | |].
  - intros [|[|?]] _; lra.
  - cbn. lra.
  - intros u Hu. destruct (Rlt_dec u a); [|destruct (Rlt_dec u b)].
    + exists [], 0%nat, [1; 2]%nat. split; [reflexivity|]. split; [cbn; lra|]. apply H2; lra.
    + exists [0%nat], 1%nat, [2%nat]. split; [reflexivity|]. split; [cbn; lra|]. apply H1; lra.
    + exists [0; 1]%nat, 2%nat, []. split; [reflexivity|]. split; [cbn; lra|]. apply H2; lra.
Qed.

Lemma between_true a b x : a <= x < b -> between a b x = true.
Proof. intros H. unfold between. destruct (Rle_dec a x), (Rlt_dec x b); auto; lra. Qed.
Lemma between_false a b x : ~ a <= x < b -> between a b x = false.
Proof. intros H. unfold between. destruct (Rle_dec a x), (Rlt_dec x b); auto; lra. Qed.

(** The angle is the angle. *)
Lemma angle_is s phi : 0 < s -> 0 <= phi < 2 * PI -> angle (s * cos phi) (s * sin phi) = phi.
Proof.
  intros Hs Hp. unfold angle.
  replace (s * cos phi * (s * cos phi) + s * sin phi * (s * sin phi)) with (s * s)
    by (pose proof (sin2_cos2' phi); nra).
  rewrite sqrt_square by lra. replace (s * cos phi / s) with (cos phi) by (field; lra).
  destruct (Rle_dec 0 (s * sin phi)) as [H|H].
  - assert (phi <= PI).
    { destruct (Rle_dec phi PI); auto. assert (sin phi < 0) by (apply sin_lt_0; lra). nra. }
    apply acos_cos. lra.
  - assert (PI < phi).
    { destruct (Rlt_dec PI phi); auto. assert (0 <= sin phi) by (apply sin_ge_0; lra).
      exfalso. apply H. apply Rmult_le_pos; lra. }
    replace (cos phi) with (cos (2 * PI - phi)).
    + rewrite acos_cos by lra. ring.
    + rewrite cos_minus, cos_2PI, sin_2PI. ring.
Qed.

Definition around (d e1 e2 : vec) (mu phi : R) : vec :=
  vadd (vadd (vscale (sqrt (1 - mu * mu) * cos phi) e1) (vscale (sqrt (1 - mu * mu) * sin phi) e2)) (vscale mu d).

Lemma around_patch d e1 e2 mu phi a b f t : frame d e1 e2 -> -1 < mu < 1 -> 0 <= phi < 2 * PI ->
  patch d e1 e2 a b f t (pt (around d e1 e2 mu phi)) = between a b mu && between f t phi.
Proof.
  intros [U0 U1 U2 O1 O2 O12] Hm Hp. unfold patch. cbn [px py pz pt].
  replace (V3 (vx (around d e1 e2 mu phi)) (vy (around d e1 e2 mu phi)) (vz (around d e1 e2 mu phi)))
    with (around d e1 e2 mu phi) by (now destruct (around d e1 e2 mu phi)).
  apply unit_dot in U0, U1, U2.
  assert (D0 : dot (around d e1 e2 mu phi) d = mu).
  { unfold around. rewrite !dot_add_l, !dot_scale_l, O1, O2, U0. ring. }
  assert (D1 : dot (around d e1 e2 mu phi) e1 = sqrt (1 - mu * mu) * cos phi).
  { unfold around. rewrite !dot_add_l, !dot_scale_l, (dot_comm e2 e1), (dot_comm d e1), O1, O12, U1. ring. }
  assert (D2 : dot (around d e1 e2 mu phi) e2 = sqrt (1 - mu * mu) * sin phi).
  { unfold around. rewrite !dot_add_l, !dot_scale_l, (dot_comm d e2), O2, O12, U2. ring. }
  cbv zeta. unfold azimuth. rewrite D0, D1, D2, angle_is; auto. apply sqrt_lt_R0. nra.
Qed.

(** The azimuth alone. *)
Lemma chance_turn n d e1 e2 (E : list R -> bool) mu a b f t : frame d e1 e2 -> -1 < mu < 1 -> a <= mu < b ->
  0 <= f -> f <= t -> t <= 2 * PI ->
  (forall v l, 0 < v < 1 -> E (v :: l) = patch d e1 e2 a b f t (pt (around d e1 e2 mu (2 * PI * v)))) ->
  chance (S n) E ((t - f) / (2 * PI)).
Proof.
  intros Fr Hm Hab H0 H1 H2 HE. pose proof PI_RGT_0 as P.
  replace ((t - f) / (2 * PI)) with ((t / (2 * PI) - f / (2 * PI)) * 1) by (field; lra).
  assert (Le : forall x y, x <= y -> x / (2 * PI) <= y / (2 * PI)).
  { intros x y H. apply Rmult_le_compat_r; auto. left. apply Rinv_0_lt_compat. lra. }
  assert (In : forall v, f / (2 * PI) <= v < t / (2 * PI) <-> f <= 2 * PI * v < t).
  { intros v. replace v with (2 * PI * v / (2 * PI)) at 1 2 by (field; lra). split; intros [A B]; split.
    - apply (Rmult_le_reg_r (/ (2 * PI))); [apply Rinv_0_lt_compat; lra|exact A].
    - apply (Rmult_lt_reg_r (/ (2 * PI))); [apply Rinv_0_lt_compat; lra|exact B].
    - now apply Le.
    - apply Rmult_lt_compat_r; auto. apply Rinv_0_lt_compat. lra. }
  apply chance_between.
  - replace 0 with (0 / (2 * PI)) by (field; lra). now apply Le.
  - now apply Le.
  - replace 1 with (2 * PI / (2 * PI)) by (field; lra). now apply Le.
  - intros v Hv I. apply In in I. apply (chance_sure n _ true). intros l. rewrite HE by auto.
    rewrite around_patch by (auto; nra). rewrite !between_true; auto.
  - intros v Hv I. apply (chance_sure n _ false). intros l. rewrite HE by auto.
    rewrite around_patch by (auto; nra). rewrite (between_false f t); [apply andb_false_r|]. now rewrite <- In.
Qed.
Lemma chance_away n d e1 e2 (E : list R -> bool) mu a b f t : frame d e1 e2 -> -1 < mu < 1 -> ~ a <= mu < b ->
  (forall v l, 0 < v < 1 -> E (v :: l) = patch d e1 e2 a b f t (pt (around d e1 e2 mu (2 * PI * v)))) ->
  chance (S n) E 0.
Proof.
  intros Fr Hm Hab HE. pose proof PI_RGT_0 as P. apply chance_any. intros v Hv. apply chance_never. intros l.
  rewrite HE by auto. rewrite around_patch by (auto; nra). now rewrite between_false.
Qed.

Lemma axes : frame (V3 1 0 0) (V3 0 1 0) (V3 0 0 1).
Proof. constructor; try (apply unit_dot); unfold dot; cbn; ring. Qed.
Lemma rot_frame d : unit d -> frame d (rot_u d) (rot_v d).
Proof. intros Hd. destruct (rot_basis d Hd) as (U & V & A & B & C). now constructor. Qed.

(** A frame is complete. *)
Lemma frame_norm d e1 e2 w : frame d e1 e2 ->
  dot w w = dot w d * dot w d + dot w e1 * dot w e1 + dot w e2 * dot w e2.
Proof.
  intros [U0 U1 U2 O1 O2 O12]. apply unit_dot in U0, U1, U2.
  set (c := cross d e1).
  assert (Cc : dot c c = 1).
  { unfold c. rewrite lagrange, U0, U1, (dot_comm d), O1. ring. }
  assert (Wc : forall z, dot z c * dot z c = dot z z - dot z d * dot z d - dot z e1 * dot z e1).
  { intros z. unfold c. rewrite gram, U0, U1, O1. ring. }
  assert (K : dot e2 c * dot e2 c = 1).
  { rewrite Wc, U2, O2, (dot_comm e2), O12. ring. }
  set (k := dot e2 c) in *.
  assert (Z : dot (vadd e2 (vscale (- k) c)) (vadd e2 (vscale (- k) c)) = 0).
  { rewrite !dot_add_l, !dot_add_r, !dot_scale_l, !dot_scale_r, (dot_comm c e2), U2, Cc. fold k. lra. }
  assert (E : e2 = vscale k c).
  { apply dot_zero in Z. clear -Z. clearbody k c. destruct e2 as [x y z], c as [x' y' z'].
    unfold vadd, vscale, zero_vec in Z |- *. cbn in Z |- *. injection Z as A B C. f_equal; lra. }
  rewrite E, dot_scale_r. pose proof (Wc w). nra.
Qed.
Lemma frame_complete d e1 e2 w : frame d e1 e2 ->
  w = vadd (vadd (vscale (dot w e1) e1) (vscale (dot w e2) e2)) (vscale (dot w d) d).
Proof.
  intros Fr. pose proof (frame_norm d e1 e2 w Fr) as Nm.
  destruct Fr as [U0 U1 U2 O1 O2 O12]. apply unit_dot in U0, U1, U2.
  set (v := vadd (vadd (vscale (dot w e1) e1) (vscale (dot w e2) e2)) (vscale (dot w d) d)).
  assert (Z : dot (vadd w (vscale (-1) v)) (vadd w (vscale (-1) v)) = 0).
  { unfold v. rewrite !dot_add_l, !dot_add_r, !dot_scale_l, !dot_scale_r, !dot_add_l, !dot_add_r, !dot_scale_l, !dot_scale_r.
    rewrite (dot_comm e1 w), (dot_comm e2 w), (dot_comm d w), (dot_comm e2 e1), (dot_comm d e1), (dot_comm d e2), U0, U1, U2, O1, O2, O12.
    lra. }
  apply dot_zero in Z. clear -Z. clearbody v. destruct w as [x y z], v as [x' y' z'].
  unfold vadd, vscale, zero_vec in Z. cbn in Z. injection Z as A B C. f_equal; lra.
Qed.

(** Cosine and azimuth are those of the direction. *)
Lemma C104_patches_proof :
  forall (d e1 e2 : vec) (a b f t : R), frame d e1 e2 ->
  (* every direction off the pole has its cosine and azimuth *)
  (forall w, unit w -> -1 < dot w d < 1 ->
     let mu := dot w d in let phi := azimuth e1 e2 w in
     0 <= phi < 2 * PI
     /\ w = vadd (vscale mu d) (vscale (sqrt (1 - mu * mu)) (vadd (vscale (cos phi) e1) (vscale (sin phi) e2))))
  /\ (* and a patch holds those of its cosines and azimuths *)
  forall w, patch d e1 e2 a b f t (pt w) = true <-> a <= dot w d < b /\ f <= azimuth e1 e2 w < t.
Proof.
  intros d e1 e2 a b f t Fr. split.
  - intros w Uw Hm. cbv zeta. set (mu := dot w d) in *.
    pose proof (frame_norm d e1 e2 w Fr) as Nm. apply unit_dot in Uw. rewrite Uw in Nm. fold mu in Nm.
    set (s := sqrt (1 - mu * mu)).
    assert (Hs : 0 < s) by (apply sqrt_lt_R0; nra).
    assert (S2 : s * s = 1 - mu * mu) by (apply sqrt_sqrt; nra).
    destruct (circle_angle (dot w e1 / s) (dot w e2 / s)) as (phi & Bp & C & Sn).
    { replace (dot w e1 / s * (dot w e1 / s) + dot w e2 / s * (dot w e2 / s))
        with ((dot w e1 * dot w e1 + dot w e2 * dot w e2) / (s * s)) by (field; lra).
      rewrite S2. replace (dot w e1 * dot w e1 + dot w e2 * dot w e2) with (1 - mu * mu) by lra. field. nra. }
    assert (E1 : dot w e1 = s * cos phi) by (rewrite C; field; lra).
    assert (E2 : dot w e2 = s * sin phi) by (rewrite Sn; field; lra).
    assert (Ea : azimuth e1 e2 w = phi) by (unfold azimuth; rewrite E1, E2; now apply angle_is).
    rewrite Ea. split; [exact Bp|].
    rewrite (frame_complete d e1 e2 w Fr). fold mu. rewrite E1, E2. unfold vadd, vscale. cbn. f_equal; ring.
  - intros w. unfold patch. cbn [px py pz pt].
    replace (V3 (vx w) (vy w) (vz w)) with w by (now destruct w). cbv zeta. rewrite andb_true_iff.
    unfold between.
    destruct (Rle_dec a (dot w d)), (Rlt_dec (dot w d) b), (Rle_dec f (azimuth e1 e2 w)), (Rlt_dec (azimuth e1 e2 w) t);
      split; intros [A B]; try discriminate; try (split; auto; lra); try lra; exfalso; lra.
Qed.

(** Directions of the source, and of what it scatters. *)
Lemma C104_isotropic_proof :
  forall (a b f t : R) (more : nat), -1 <= a -> a <= b -> b <= 1 -> 0 <= f -> f <= t -> t <= 2 * PI ->
  (* the isotropic source *)
  chance (2 + more)
    (fun l => patch (V3 1 0 0) (V3 0 1 0) (V3 0 0 1) a b f t
                (fst (sample_direction (A := XRa) (G := Given) DirIsotropic l)))
    ((b - a) * (t - f) / (4 * PI))
  (* scattering by multigroup data *)
  /\ forall p : particle XRa Given,
     chance (2 + more)
       (fun l => patch (V3 1 0 0) (V3 0 1 0) (V3 0 0 1) a b f t
                   (p_direction (set_direction_isotropic (set_rng p l))))
       ((b - a) * (t - f) / (4 * PI)).
Proof.
  intros a b f t more Ha Hab Hb Hf Hft Ht. pose proof PI_RGT_0 as P.
  assert (K : chance (2 + more) (fun l => patch (V3 1 0 0) (V3 0 1 0) (V3 0 0 1) a b f t (fst (dir_isotropic Given l)))
                ((b - a) * (t - f) / (4 * PI))).
  { replace ((b - a) * (t - f) / (4 * PI)) with (((b + 1) / 2 - (a + 1) / 2) * ((t - f) / (2 * PI))) by (field; lra).
    assert (D : forall u v l, 0 < u < 1 -> 0 < v < 1 -> fst (dir_isotropic Given (u :: v :: l))
                = pt (around (V3 1 0 0) (V3 0 1 0) (V3 0 0 1) (2 * u - 1) (2 * PI * v))).
    { intros u v l Hu Hv.
      destruct (C70_isotropic_direction_proof Given (u :: v :: l) (open_valid _ given_open)) as (u' & v' & Eu & _ & Ev & _ & Ed & _).
      cbn in Eu, Ev. rewrite inside_is in Eu, Ev by auto. injection Eu as <-. injection Ev as <-.
      cbn zeta in Ed. rewrite Ed. f_equal. unfold around, vadd, vscale. cbn. f_equal; ring. }
    apply (chance_between (1 + more)); [lra|lra|lra| |]; intros u Hu I; cbn [Nat.add].
    - eapply chance_turn with (mu := 2 * u - 1) (a := a) (b := b) (f := f) (t := t); [exact axes|lra|lra|exact Hf|exact Hft|exact Ht|].
      intros v l Hv. now rewrite D.
    - eapply chance_away with (mu := 2 * u - 1) (a := a) (b := b) (f := f) (t := t); [exact axes|lra|lra|].
      intros v l Hv. now rewrite D. }
  split; [exact K|]. intros p. eapply chance_ext; [|exact K]. intros l. cbv beta.
  unfold set_direction_isotropic. cbn [p_rng set_rng]. now destruct (dir_isotropic Given l).
Qed.

(** The source of isotropic flux: more often along the reference, in proportion to the cosine. *)
Lemma C104_flux_proof :
  forall d : vec, unit d -> exists e1 e2, frame d e1 e2
  /\ forall (a b f t : R) (more : nat), 0 <= a -> a <= b -> b <= 1 -> 0 <= f -> f <= t -> t <= 2 * PI ->
     chance (2 + more)
       (fun l => patch d e1 e2 a b f t
                   (fst (sample_direction (A := XRa) (G := Given) (DirIsotropicFlux (pt d)) l)))
       ((b * b - a * a) * (t - f) / (2 * PI)).
Proof.
  intros d Hd. exists (rot_u d), (rot_v d). split; [exact (rot_frame d Hd)|].
  intros a b f t more Ha Hab Hb Hf Hft Ht. pose proof PI_RGT_0 as P.
  replace ((b * b - a * a) * (t - f) / (2 * PI)) with ((b * b - a * a) * ((t - f) / (2 * PI))) by (field; lra).
  assert (D : forall u v l, 0 < u < 1 -> 0 < v < 1 ->
    fst (sample_direction (A := XRa) (G := Given) (DirIsotropicFlux (pt d)) (u :: v :: l))
    = pt (around d (rot_u d) (rot_v d) (sqrt u) (2 * PI * v))).
  { intros u v l Hu Hv. unfold sample_direction, uniform. cbn [runif Given hd tl fst].
    rewrite !inside_is by auto. unfold c_pi. xr.
    replace (v * (2 * PI + - 0) + 0) with (2 * PI * v) by ring.
    rewrite xsqrt_fin by lra. assert (0 <= sqrt u <= 1).
    { split; [apply sqrt_pos|]. rewrite <- sqrt_1. apply sqrt_le_1; lra. }
    apply dir_rotate_pt; auto. lra. }
  assert (Sq : forall u, 0 < u < 1 -> (a * a <= u < b * b <-> a <= sqrt u < b) /\ -1 < sqrt u < 1).
  { intros u Hu. assert (Hs : sqrt u * sqrt u = u) by (apply sqrt_sqrt; lra).
    assert (0 < sqrt u) by (apply sqrt_lt_R0; lra). split; [|split; nra]. split; intros [A B]; split; nra. }
  apply (chance_between (1 + more)); [nra|nra|nra| |]; intros u Hu I; cbn [Nat.add]; destruct (Sq u Hu) as [Iff Bd].
  - eapply chance_turn with (mu := sqrt u) (a := a) (b := b) (f := f) (t := t); [exact (rot_frame d Hd)|lra|now apply Iff|exact Hf|exact Hft|exact Ht|].
    intros v l Hv. now rewrite D.
  - eapply chance_away with (mu := sqrt u) (a := a) (b := b) (f := f) (t := t); [exact (rot_frame d Hd)|lra|intros Q; apply I, Iff, Q|].
    intros v l Hv. now rewrite D.
Qed.

(** Scattering with a given cosine: any azimuth about the old direction alike. *)
Lemma C104_scattered_proof :
  forall d : vec, unit d -> exists e1 e2, frame d e1 e2
  /\ forall (p : particle XRa Given) (mu : R) (e : energy XRa) (a b f t : R) (more : nat),
     p_direction p = pt d -> -1 < mu < 1 -> a <= mu < b -> 0 <= f -> f <= t -> t <= 2 * PI ->
     chance (1 + more)
       (fun l => patch d e1 e2 a b f t (p_direction (p_scatter (set_rng p l) (Fin mu) e)))
       ((t - f) / (2 * PI)).
Proof.
  intros d Hd. exists (rot_u d), (rot_v d). split; [exact (rot_frame d Hd)|].
  intros p mu e a b f t more Ep Hm Hab Hf Hft Ht.
  eapply chance_turn with (mu := mu) (a := a) (b := b) (f := f) (t := t); [exact (rot_frame d Hd)|exact Hm|exact Hab|exact Hf|exact Hft|exact Ht|].
  intros v l Hv.
  destruct (C70_isotropic_direction_proof Given (v :: l) (open_valid _ given_open)) as (u' & v' & Eu & _ & _ & _ & _ & _ & Sc).
  cbn in Eu. rewrite inside_is in Eu by auto. injection Eu as <-.
  destruct (Sc (set_rng p (v :: l)) (Fin mu) e eq_refl) as [E _]. cbn [p_direction set_rng] in E.
  change (num XRa) with xr in *. rewrite E, Ep, dir_rotate_pt by (auto; lra). reflexivity.
Qed.

(** An example: the upper half of the forward hemisphere. *)
Lemma C104_example :
  frame (V3 1 0 0) (V3 0 1 0) (V3 0 0 1)
  /\ unit (V3 1 0 0) /\ p_direction blend_neutron = pt (V3 1 0 0)
  /\ patch (V3 1 0 0) (V3 0 1 0) (V3 0 0 1) 0 1 0 PI (pt (V3 (3 / 5) 0 (4 / 5))) = true
  /\ patch (V3 1 0 0) (V3 0 1 0) (V3 0 0 1) 0 1 0 PI (pt (V3 (-3 / 5) 0 (4 / 5))) = false
  /\ patch (V3 1 0 0) (V3 0 1 0) (V3 0 0 1) 0 1 0 PI (pt (V3 (3 / 5) 0 (-4 / 5))) = false
  /\ (1 - 0) * (PI - 0) / (4 * PI) = 1 / 4
  /\ (1 * 1 - 1 / 2 * (1 / 2)) * (2 * PI - 0) / (2 * PI) = 3 / 4.
Proof.
  pose proof PI_RGT_0 as P.
  split; [exact axes|]. split; [apply axes|]. split; [reflexivity|].
  assert (Pt : forall w, (patch (V3 1 0 0) (V3 0 1 0) (V3 0 0 1) 0 1 0 PI (pt w) = true)
    <-> 0 <= dot w (V3 1 0 0) < 1 /\ 0 <= azimuth (V3 0 1 0) (V3 0 0 1) w < PI)
    by (apply (proj2 (C104_patches_proof _ _ _ 0 1 0 PI axes))).
  assert (Az : forall x s, s = 1 \/ s = -1 ->
    azimuth (V3 0 1 0) (V3 0 0 1) (V3 x 0 (s * 4 / 5)) = if Rle_dec 0 s then PI / 2 else 2 * PI - PI / 2).
  { intros x s Hs. unfold azimuth, angle, dot. cbn.
    replace (x * 0 + 0 * 1 + s * 4 / 5 * 0) with 0 by ring.
    replace (0 / sqrt _) with 0 by (unfold Rdiv; ring). rewrite acos_0.
    destruct (Rle_dec 0 s), (Rle_dec 0 (x * 0 + 0 * 0 + s * 4 / 5 * 1)); auto; exfalso; lra. }
  split; [|split; [|split; [|split]]].
  - apply Pt. replace (4 / 5) with (1 * 4 / 5) by field. rewrite Az by auto.
    destruct (Rle_dec 0 1); [|lra]. unfold dot. cbn. lra.
  - apply Bool.not_true_iff_false. rewrite Pt. unfold dot. cbn. lra.
  - apply Bool.not_true_iff_false. rewrite Pt. replace (-4 / 5) with (-1 * 4 / 5) by field. rewrite Az by auto.
    destruct (Rle_dec 0 (-1)); lra.
  - field. lra.
  - field. lra.
Qed.
