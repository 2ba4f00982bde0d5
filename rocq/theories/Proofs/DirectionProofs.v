(** Directions are unit vectors; rotation. *)
From Coq Require Import List Bool ZArith NArith Reals Lra Lia Psatz.
From Verif Require Import Model.Num Model.Outcome Model.Rng Model.Xml Model.Std Model.Point
  Model.Types Model.Particle Spec.Vec Spec.RngSpec Spec.DirectionSpec Proofs.RealLib.
Import ListNotations.
Local Open Scope R_scope.

Definition cross (a b : vec) : vec :=
  V3 (vy a * vz b - vz a * vy b) (vz a * vx b - vx a * vz b) (vx a * vy b - vy a * vx b).

Lemma pcross_pt a b : pcross (pt a) (pt b) = pt (cross a b).
Proof. reflexivity. Qed.

Lemma dot_comm a b : dot a b = dot b a.
Proof. unfold dot; ring. Qed.
Lemma cross_orth_l a b : dot (cross a b) a = 0.
Proof. unfold dot, cross; cbn; ring. Qed.
Lemma cross_orth_r a b : dot (cross a b) b = 0.
Proof. unfold dot, cross; cbn; ring. Qed.
Lemma lagrange a b : dot (cross a b) (cross a b) = dot a a * dot b b - dot a b * dot a b.
Proof. unfold dot, cross; cbn; ring. Qed.
Lemma gram w d u :
  dot w (cross d u) * dot w (cross d u)
  = dot w w * dot u u * dot d d + 2 * dot w u * dot u d * dot d w
    - dot w w * dot u d * dot u d - dot u u * dot w d * dot w d - dot d d * dot w u * dot w u.
Proof. destruct w, d, u; unfold dot, cross; cbn; ring. Qed.

Lemma dot_scale_l t a b : dot (vscale t a) b = t * dot a b.
Proof. unfold dot, vscale; cbn; ring. Qed.
Lemma dot_scale_r t a b : dot a (vscale t b) = t * dot a b.
Proof. unfold dot, vscale; cbn; ring. Qed.
Lemma dot_add_l a b c : dot (vadd a b) c = dot a c + dot b c.
Proof. unfold dot, vadd; cbn; ring. Qed.
Lemma dot_add_r a b c : dot a (vadd b c) = dot a b + dot a c.
Proof. unfold dot, vadd; cbn; ring. Qed.

(** The auxiliary axis of the rotation is never parallel to the reference. *)
Definition aux_axis (d : vec) : vec :=
  if (Rleb (vx d) (9 / 10) && Rltb (- (9 / 10)) (vx d))%bool then V3 1 0 0 else V3 0 1 0.

Lemma aux_cross d : unit d -> cross d (aux_axis d) <> zero_vec.
Proof.
  intros Hu E. apply unit_dot in Hu. unfold aux_axis in E.
  destruct d as [x y z]; unfold dot, cross, zero_vec in *; cbn in *.
  destruct (Rleb_spec x (9 / 10)), (Rltb_spec (- (9 / 10)) x); cbn in E; injection E; intros; nra.
Qed.

(** The two unit vectors orthogonal to the reference. *)
Definition rot_u (d : vec) : vec :=
  let c := cross d (aux_axis d) in vscale (/ norm c) c.
Definition rot_v (d : vec) : vec := cross d (rot_u d).

Lemma rot_basis d : unit d ->
  unit (rot_u d) /\ unit (rot_v d)
  /\ dot (rot_u d) d = 0 /\ dot (rot_v d) d = 0 /\ dot (rot_u d) (rot_v d) = 0.
Proof.
  intros Hd. pose proof (aux_cross d Hd) as Nz.
  assert (U : unit (rot_u d)) by (apply unit_normalized; auto).
  assert (Ud : dot (rot_u d) d = 0)
    by (unfold rot_u; rewrite dot_scale_l, cross_orth_l; ring).
  assert (V : dot (rot_v d) (rot_v d) = 1).
  { unfold rot_v; rewrite lagrange. apply unit_dot in Hd, U.
    rewrite Hd, U, (dot_comm d), Ud; ring. }
  repeat split; auto.
  - now apply unit_dot.
  - apply cross_orth_l.
  - unfold rot_v; rewrite dot_comm; apply cross_orth_r.
Qed.

(** The rotated direction before normalisation, which does nothing. *)
Definition rotated (d : vec) (mu phi : R) : vec :=
  vadd (vadd (vscale (sqrt (1 - mu * mu) * cos phi) (rot_u d))
             (vscale (sqrt (1 - mu * mu) * sin phi) (rot_v d))) (vscale mu d).

Lemma sin2_cos2' x : sin x * sin x + cos x * cos x = 1.
Proof. pose proof (sin2_cos2 x); unfold Rsqr in *; lra. Qed.

Lemma rotated_unit d mu phi : unit d -> -1 <= mu <= 1 -> unit (rotated d mu phi).
Proof.
  intros Hd Hm. destruct (rot_basis d Hd) as (U & V & Ud & Vd & UV).
  apply unit_dot in Hd, U, V. apply unit_dot. unfold rotated.
  rewrite !dot_add_l, !dot_add_r, !dot_scale_l, !dot_scale_r.
  rewrite (dot_comm (rot_v d) (rot_u d)), (dot_comm d (rot_u d)), (dot_comm d (rot_v d)).
  rewrite Hd, U, V, Ud, Vd, UV.
  assert (S2 : sqrt (1 - mu * mu) * sqrt (1 - mu * mu) = 1 - mu * mu)
    by (apply sqrt_sqrt; nra).
  pose proof (sin2_cos2' phi). nra.
Qed.

Lemma rotated_cosine d mu phi : unit d -> dot (rotated d mu phi) d = mu.
Proof.
  intros Hd. destruct (rot_basis d Hd) as (_ & _ & Ud & Vd & _). apply unit_dot in Hd.
  unfold rotated. rewrite !dot_add_l, !dot_scale_l, Hd, Ud, Vd; ring.
Qed.

Lemma dir_rotate_pt d mu phi : unit d -> -1 <= mu <= 1 ->
  dir_rotate (A := XRa) (pt d) (Fin mu) (Fin phi) = pt (rotated d mu phi).
Proof.
  intros Hd Hm. unfold dir_rotate.
  match goal with |- context [pcross (pt d) ?a] => replace a with (pt (aux_axis d)) end.
  2: { unfold aux_axis, on_axis_tolerance; cbn [px pt]. xr. decs.
       destruct (Rleb (vx d) (9 / 10) && Rltb (- (9 / 10)) (vx d))%bool; reflexivity. }
  pose proof (aux_cross d Hd) as Nz.
  assert (Eu : dir_of_point (pcross (pt d) (pt (aux_axis d))) = pt (rot_u d)).
  { unfold dir_of_point. rewrite pcross_pt, pnormalize_pt by auto. reflexivity. }
  rewrite Eu.
  destruct (rot_basis d Hd) as (U & V & _).
  assert (Ev : dir_of_point (pcross (pt d) (pt (rot_u d))) = pt (rot_v d)).
  { unfold dir_of_point. rewrite pcross_pt. apply unit_norm1; auto. }
  rewrite Ev. xr. rewrite xsqrt_fin by nra. xr.
  rewrite !pscale_pt, !padd_pt. unfold dir_of_point. rewrite unit_norm1; [reflexivity|].
  apply rotated_unit; auto.
Qed.

(** ** Isotropic directions *)
Lemma dir_isotropic_pt (G : Rng XRa) s : valid_rng G ->
  exists v, fst (dir_isotropic G s) = pt v /\ unit v.
Proof.
  intros HG. unfold dir_isotropic, uniform.
  destruct (HG s) as (u1 & E1 & B1). destruct (runif G s) as [x1 s1]; cbn in E1; subst.
  destruct (HG s1) as (u2 & E2 & B2). destruct (runif G s1) as [x2 s2]; cbn in E2; subst.
  cbn [fst]. unfold c_pi. xr.
  set (x := u1 * (1 + - - (1)) + - (1)).
  match goal with |- context [cos ?p] => set (phi := p) end.
  assert (Bx : -1 <= x <= 1) by (unfold x; lra).
  rewrite xsqrt_fin by nra. xr.
  exists (V3 x (sqrt (1 + - (x * x)) * cos phi) (sqrt (1 + - (x * x)) * sin phi)).
  split; [reflexivity|]. apply unit_dot; unfold dot; cbn.
  assert (S2 : sqrt (1 + - (x * x)) * sqrt (1 + - (x * x)) = 1 + - (x * x))
    by (apply sqrt_sqrt; nra).
  pose proof (sin2_cos2' phi). nra.
Qed.

Lemma C14_directions_are_unit_proof :
  (* from components, from a non-zero vector *)
  (forall v, v <> zero_vec ->
     unit_point (dir_xyz (A := XRa) (Fin (vx v)) (Fin (vy v)) (Fin (vz v)))
     /\ unit_point (dir_of_point (pt v)))
  (* from a node *)
  /\ (forall (X : Ext XRa) (nd : node) v, v <> zero_vec ->
        point_of_node X nd = pt v -> unit_point (dir_of_node X nd))
  (* isotropically *)
  /\ (forall (G : Rng XRa) (s : rst G), valid_rng G -> unit_point (fst (dir_isotropic G s)))
  (* by rotation *)
  /\ (forall d mu phi, unit d -> -1 <= mu <= 1 ->
        unit_point (dir_rotate (A := XRa) (pt d) (Fin mu) (Fin phi))).
Proof.
  assert (N : forall v, v <> zero_vec -> unit_point (pnormalize (pt v))).
  { intros v H; rewrite pnormalize_pt by auto. eexists; split; [reflexivity|].
    apply unit_normalized; auto. }
  split; [|split; [|split]].
  - intros v H; split; apply N; auto.
  - intros X nd v H E. unfold dir_of_node; rewrite E; auto.
  - intros G s HG. apply dir_isotropic_pt; auto.
  - intros d mu phi Hd Hm. rewrite dir_rotate_pt by auto. eexists; split; [reflexivity|].
    apply rotated_unit; auto.
Qed.

(** ** The cone *)
Lemma circle_angle x y : x * x + y * y = 1 -> exists phi, 0 <= phi < 2 * PI /\ cos phi = x /\ sin phi = y.
Proof.
  intros H. assert (Bx : -1 <= x <= 1) by nra.
  pose proof (acos_bound x) as Ba. pose proof PI_RGT_0.
  assert (Sq : sqrt (1 - x²) = Rabs y).
  { replace (1 - x²) with (y²) by (unfold Rsqr; lra). apply sqrt_Rsqr_abs. }
  destruct (Rle_lt_dec 0 y) as [Hy|Hy].
  - exists (acos x). split; [lra|]. rewrite cos_acos, sin_acos by auto.
    rewrite Sq, Rabs_right by lra. auto.
  - exists (2 * PI - acos x). split.
    + split; [lra|]. destruct (Req_dec (acos x) 0) as [Z|Z]; [|lra].
      exfalso. assert (cos (acos x) = x) by (apply cos_acos; auto).
      rewrite Z, cos_0 in H1. nra.
    + replace (2 * PI - acos x) with (- acos x + 2 * PI) by ring.
      rewrite cos_plus, sin_plus, cos_2PI, sin_2PI, cos_neg, sin_neg, cos_acos, sin_acos by auto.
      rewrite Sq, Rabs_left by lra. split; ring.
Qed.

Lemma basis_complete d w : unit d ->
  w = vadd (vadd (vscale (dot w (rot_u d)) (rot_u d)) (vscale (dot w (rot_v d)) (rot_v d)))
           (vscale (dot w d) d).
Proof.
  intros Hd. destruct (rot_basis d Hd) as (U & V & Ud & Vd & UV).
  apply unit_dot in Hd, U, V.
  set (u := rot_u d) in *. set (v := rot_v d) in *.
  set (w' := vadd (vadd (vscale (dot w u) u) (vscale (dot w v) v)) (vscale (dot w d) d)).
  assert (G : dot w v * dot w v = dot w w - dot w d * dot w d - dot w u * dot w u).
  { unfold v, rot_v. fold u. rewrite gram. rewrite Hd, U, Ud. ring. }
  assert (Z : dot (vsub w w') (vsub w w') = 0).
  { assert (E : dot (vsub w w') (vsub w w') = dot w w - 2 * dot w w' + dot w' w')
      by (destruct w, w'; unfold dot, vsub; cbn; ring).
    rewrite E. unfold w'.
    rewrite !dot_add_r, !dot_add_l, !dot_scale_r, !dot_scale_l.
    rewrite (dot_comm v u), (dot_comm d u), (dot_comm d v), Hd, U, V, Ud, Vd, UV. nra. }
  apply dot_zero in Z. destruct w as [wx wy wz]. destruct w' as [ax ay az].
  unfold vsub, zero_vec in Z; cbn in Z. injection Z; intros. f_equal; lra.
Qed.

Lemma C15_rotation_cosine_proof :
  forall (d : vec) (mu : R), unit d -> -1 <= mu <= 1 ->
    (* the requested cosine *)
    (forall phi, exists w, dir_rotate (A := XRa) (pt d) (Fin mu) (Fin phi) = pt w
                           /\ unit w /\ dot w d = mu)
    (* every direction of the cone is reached by some azimuth in [0, 2 pi) *)
    /\ (forall w, unit w -> dot w d = mu ->
          exists phi, 0 <= phi < 2 * PI
            /\ dir_rotate (A := XRa) (pt d) (Fin mu) (Fin phi) = pt w)
    (* azimuths pi apart are mirror images about mu * d *)
    /\ (forall phi w w',
          dir_rotate (A := XRa) (pt d) (Fin mu) (Fin phi) = pt w ->
          dir_rotate (A := XRa) (pt d) (Fin mu) (Fin (phi + PI)) = pt w' ->
          vadd w w' = vscale (2 * mu) d).
Proof.
  intros d mu Hd Hm. split; [|split].
  - intros phi. rewrite dir_rotate_pt by auto. eexists; split; [reflexivity|split].
    + apply rotated_unit; auto.
    + apply rotated_cosine; auto.
  - intros w Hw E.
    pose proof (basis_complete d w Hd) as B. rewrite E in B.
    destruct (rot_basis d Hd) as (U & V & Ud & Vd & UV).
    pose proof Hd as Hd1. apply unit_dot in Hd1.
    pose proof Hw as Hw1. apply unit_dot in U, V, Hw1.
    set (a := dot w (rot_u d)) in *. set (b := dot w (rot_v d)) in *.
    assert (S1 : a * a + b * b = 1 - mu * mu).
    { assert (G : b * b = dot w w - dot w d * dot w d - a * a).
      { unfold b, a, rot_v. rewrite gram. rewrite Hd1, U, Ud. ring. }
      rewrite Hw1, E in G. lra. }
    assert (Hs : 0 <= 1 - mu * mu) by nra.
    pose proof (sqrt_sqrt _ Hs) as S2. pose proof (sqrt_pos (1 - mu * mu)) as S0.
    set (s := sqrt (1 - mu * mu)) in *.
    destruct (Req_dec s 0) as [Z|Z].
    + exists 0. split; [pose proof PI_RGT_0; lra|].
      rewrite dir_rotate_pt by auto. f_equal. rewrite B. unfold rotated. fold s.
      rewrite Z in S2. assert (a = 0) as -> by nra. assert (b = 0) as -> by nra.
      rewrite Z, cos_0, sin_0. do 2 f_equal; f_equal; ring.
    + destruct (circle_angle (a / s) (b / s)) as (phi & Bp & C & Sn).
      { replace (a / s * (a / s) + b / s * (b / s)) with ((a * a + b * b) / (s * s)) by (field; auto).
        rewrite S1, <- S2. field; auto. }
      exists phi. split; auto. rewrite dir_rotate_pt by auto. f_equal. rewrite B.
      unfold rotated. fold s. rewrite C, Sn. do 2 f_equal; f_equal; field; auto.
  - intros phi w w'. rewrite !dir_rotate_pt by auto.
    intros E1 E2. apply pt_inj in E1, E2. subst. unfold rotated. rewrite neg_cos, neg_sin.
    unfold vadd, vscale; cbn. f_equal; ring.
Qed.

(** ** C70 *)
Lemma C70_isotropic_direction_proof :
  forall (G : Rng XRa) (s : rst G), valid_rng G ->
  exists u v, draw G 0 s = Fin u /\ 0 <= u < 1 /\ draw G 1 s = Fin v /\ 0 <= v < 1
    (* an isotropic direction has a cosine to the x axis uniform on [-1,1) and an
       azimuth uniform on a full turn *)
    /\ (let mu := 2 * u - 1 in let phi := 2 * PI * v in
        fst (dir_isotropic G s) = pt (V3 mu (sqrt (1 - mu * mu) * cos phi) (sqrt (1 - mu * mu) * sin phi)))
    /\ snd (dir_isotropic G s) = advance G 2 s
    (* a scattered particle turns about its old direction by an angle uniform on a
       full turn *)
    /\ (forall (p : particle XRa G) mu E, p_rng p = s ->
          p_direction (p_scatter p mu E) = dir_rotate (p_direction p) mu (Fin (2 * PI * u))
          /\ p_rng (p_scatter p mu E) = advance G 1 s).
Proof.
  intros G s HG. unfold dir_isotropic, uniform, draw. cbn [advance].
  destruct (HG s) as (u & E1 & B1). destruct (runif G s) as [x1 s1] eqn:R1; cbn [fst snd] in *; subst x1.
  destruct (HG s1) as (v & E2 & B2). destruct (runif G s1) as [x2 s2]; cbn [fst snd] in *; subst x2.
  exists u, v. do 4 (split; [auto|]). split; [|split; [reflexivity|]].
  - cbv zeta. unfold c_pi. xr.
    replace (u * (1 + - - (1)) + - (1)) with (2 * u - 1) by ring.
    replace (v * (2 * PI + - 0) + 0) with (2 * PI * v) by ring.
    rewrite xsqrt_fin by nra. reflexivity.
  - intros p mu E Ep. unfold p_scatter, p_unif. cbn [p_rng set_indirect]. rewrite Ep, R1. split; reflexivity.
Qed.
