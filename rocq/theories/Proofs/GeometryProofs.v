(** Distances and containment over the reals. *)
From Coq Require Import List Bool ZArith NArith Reals Lra Lia Psatz.
From Verif Require Import Model.Num Model.Outcome Model.Rng Model.Xml Model.Std Model.Point Model.Surface Model.Types
  Spec.Vec Spec.GeometrySpec Proofs.RealLib.
Import ListNotations.
Local Open Scope R_scope.

(** ** The quadratic *)
Definition quad (a b c t : R) : R := a * t * t + b * t + c.

Lemma SolveQuadratic_roots a b c :
  0 < a -> 0 < b * b - 4 * a * c ->
  exists r1 r2, r1 < r2
    /\ (forall t, quad a b c t = a * (t - r1) * (t - r2))
    /\ SolveQuadratic (A := XRa) (Fin a) (Fin b) (Fin c)
       = (if Rltb 0 r1 then Fin r1 else if Rltb 0 r2 then Fin r2 else PInf).
Proof.
  intros Ha Hd. set (D := b * b - 4 * a * c) in *.
  pose proof (sqrt_lt_R0 _ Hd) as Hs. pose proof (sqrt_sqrt D (Rlt_le _ _ Hd)) as Hss.
  set (s := sqrt D) in *.
  assert (E : forall t, quad a b c t
              = a * (t - (- b - s) / (2 * a)) * (t - (- b + s) / (2 * a))).
  { intros t; unfold quad.
    replace (a * (t - (- b - s) / (2 * a)) * (t - (- b + s) / (2 * a)))
      with (a * t * t + b * t + (b * b - s * s) / (4 * a)) by (field; lra).
    rewrite Hss; unfold D; field; lra. }
  exists ((- b - s) / (2 * a)), ((- b + s) / (2 * a)).
  split; [|split; [exact E|]].
  - unfold Rdiv; apply Rmult_lt_compat_r; [apply Rinv_0_lt_compat; lra|lra].
  - unfold SolveQuadratic; xr.
    replace (b * b + - (4 * a * c)) with D by (unfold D; ring). rewrite Rleb_false by lra.
    rewrite xsqrt_fin by lra. fold s.
    assert (Hc : b * b - s * s = 4 * a * c) by (rewrite Hss; unfold D; ring).
    destruct (Rltb_spec 0 b) as [Hb|Hb]; xr.
    + rewrite !xdiv_fin by lra; xr.
      replace (2 * c / (- b + - s)) with ((- b + s) / (2 * a)).
      * replace (- b + - s) with (- b - s) by ring. reflexivity.
      * apply Rmult_eq_reg_r with (2 * a * (- b + - s)); [|nra].
        field_simplify; lra.
    + rewrite !xdiv_fin by lra; xr.
      replace (2 * c / (- b + s)) with ((- b - s) / (2 * a)); [reflexivity|].
      apply Rmult_eq_reg_r with (2 * a * (- b + s)); [|nra].
      field_simplify; lra.
Qed.

Lemma SolveQuadratic_none a b c :
  b * b - 4 * a * c <= 0 -> SolveQuadratic (A := XRa) (Fin a) (Fin b) (Fin c) = PInf.
Proof. intros H; unfold SolveQuadratic; xr; rewrite Rleb_true by lra; reflexivity. Qed.

(** No crossing when the discriminant is not positive. *)
Lemma quad_touch a b c t :
  0 < a -> b * b - 4 * a * c <= 0 -> 0 <= quad a b c t
  /\ (quad a b c t = 0 -> 2 * a * t + b = 0).
Proof.
  intros Ha Hd.
  assert (E : 4 * a * quad a b c t = (2 * a * t + b) * (2 * a * t + b) - (b * b - 4 * a * c))
    by (unfold quad; ring).
  split.
  - apply Rmult_le_reg_l with (4 * a); [lra|]. rewrite E.
    pose proof (Rle_0_sqr (2 * a * t + b)) as P; unfold Rsqr in P; lra.
  - intros H; rewrite H in E. apply Rsqr_0_uniq.
    pose proof (Rle_0_sqr (2 * a * t + b)) as P; unfold Rsqr in *; lra.
Qed.

Lemma SolveQuadratic_spec a b c :
  0 < a ->
  let sol := SolveQuadratic (A := XRa) (Fin a) (Fin b) (Fin c) in
  (forall d, sol = Fin d ->
     0 < d /\ quad a b c d = 0 /\ 2 * a * d + b <> 0 /\ forall t, 0 < t < d -> quad a b c t <> 0)
  /\ ((exists t, 0 < t /\ quad a b c t = 0 /\ 2 * a * t + b <> 0) -> exists d, sol = Fin d)
  /\ (sol = PInf \/ exists d, sol = Fin d).
Proof.
  intros Ha sol. unfold sol.
  destruct (Rle_lt_dec (b * b - 4 * a * c) 0) as [H|H].
  - rewrite SolveQuadratic_none by auto. split; [|split; auto].
    + discriminate.
    + intros (t & _ & Q & N). destruct (quad_touch a b c t Ha H); tauto.
  - destruct (SolveQuadratic_roots a b c Ha H) as (r1 & r2 & L & E & ->).
    assert (Der : forall t, 2 * a * t + b = a * (t - r1) + a * (t - r2)).
    { intros t. pose proof (E 0) as E0; pose proof (E 1) as E1.
      unfold quad in *. nra. }
    split; [|split].
    + intros d. destruct (Rltb_spec 0 r1); [|destruct (Rltb_spec 0 r2); [|discriminate]];
        intros [= <-]; (split; [lra|]); rewrite E, Der; (split; [ring|]).
      * split; [nra|]. intros t Ht; rewrite E.
        repeat apply Rmult_integral_contrapositive_currified; lra.
      * split; [nra|]. intros t Ht; rewrite E.
        intros Q. apply Rmult_integral in Q as [Q|Q]; [|lra].
        apply Rmult_integral in Q as [Q|Q]; lra.
    + intros (t & Ht & Q & _). rewrite E in Q.
      destruct (Rltb_spec 0 r1); [eauto|]. destruct (Rltb_spec 0 r2); [eauto|].
      exfalso. apply Rmult_integral in Q as [Q|Q]; [|lra].
      apply Rmult_integral in Q as [Q|Q]; lra.
    + repeat rcase; eauto.
Qed.

(** ** Sphere *)
Lemma sphere_distance c r o u : unit u ->
  distance (Sphere (pt c) (Fin r)) (pt o) (pt u)
  = SolveQuadratic (A := XRa) (Fin 1) (Fin (2 * dot (vsub o c) u))
      (Fin (dot (vsub o c) (vsub o c) - r * r)).
Proof. intros Hu; reflexivity. Qed.

Lemma sphere_quad c r o u t : unit u ->
  dot (vsub (along o u t) c) (vsub (along o u t) c) - r * r
  = quad 1 (2 * dot (vsub o c) u) (dot (vsub o c) (vsub o c) - r * r) t.
Proof.
  intros Hu; apply unit_dot in Hu. unfold quad. rewrite <- Hu at 1.
  destruct o, u, c; unfold along, vadd, vsub, vscale, dot in *; cbn in *. ring.
Qed.

Lemma on_sphere_quad c r p : 0 < r ->
  on_sphere c r p <-> dot (vsub p c) (vsub p c) - r * r = 0.
Proof.
  intros Hr; unfold on_sphere, dist, norm; split; intros H.
  - pose proof (sqrt_sqrt _ (dot_nonneg (vsub p c))) as S2. rewrite H in S2. lra.
  - replace (dot (vsub p c) (vsub p c)) with (r * r) by lra. apply sqrt_square; lra.
Qed.

Lemma sphere_slope c o u t : unit u ->
  dot (vsub (along o u t) c) u = dot (vsub o c) u + t.
Proof.
  intros Hu; apply unit_dot in Hu. replace t with (t * dot u u) at 2 by (rewrite Hu; ring).
  destruct o, u, c; unfold along, vadd, vsub, vscale, dot in *; cbn in *. ring.
Qed.

Lemma C06_sphere_distance_proof :
  forall (c : vec) (r : R) (o u : vec),
    0 < r -> unit u ->
    let reported := distance (Sphere (pt c) (Fin r)) (pt o) (pt u) in
    let transversal p := crosses_sphere c p u in
    (some_crossing (on_sphere c r) transversal o u ->
       exists d, reported = Fin d /\ first_crossing (on_sphere c r) transversal o u d)
    /\ (~ some_crossing (on_sphere c r) transversal o u -> reported = PInf).
Proof.
  intros c r o u Hr Hu reported transversal. unfold reported. rewrite sphere_distance by auto.
  destruct (SolveQuadratic_spec 1 (2 * dot (vsub o c) u)
              (dot (vsub o c) (vsub o c) - r * r)) as (S1 & S2 & S3); [lra|].
  assert (On : forall t, on_sphere c r (along o u t)
            <-> quad 1 (2 * dot (vsub o c) u) (dot (vsub o c) (vsub o c) - r * r) t = 0).
  { intros t; rewrite on_sphere_quad, sphere_quad by auto; tauto. }
  assert (Tr : forall t, transversal (along o u t)
            <-> 2 * 1 * t + 2 * dot (vsub o c) u <> 0).
  { intros t; unfold transversal, crosses_sphere; rewrite sphere_slope by auto.
    split; intros H; lra. }
  assert (Fc : forall d, SolveQuadratic (A := XRa) (Fin 1) (Fin (2 * dot (vsub o c) u))
      (Fin (dot (vsub o c) (vsub o c) - r * r)) = Fin d ->
      first_crossing (on_sphere c r) transversal o u d).
  { intros d E; destruct (S1 d E) as (P & Q & N & F). split; [auto|].
    rewrite On, Tr. split; [auto|split; [auto|]]. intros t Ht; rewrite On; auto. }
  split.
  - intros (t & P & Q & N). destruct S2 as [d E].
    + exists t; rewrite <- On, <- Tr; auto.
    + exists d; auto.
  - intros N. destruct S3 as [E|[d E]]; auto.
    exfalso; apply N. destruct (Fc d E) as (P & Q & T & _). exists d; auto.
Qed.

(** ** Plane *)
Lemma planex_distance c o u :
  distance (PlaneX (A := XRa) (Fin c)) (pt o) (pt u)
  = (if Reqb (vx u) 0 then PInf
     else if Rltb 0 ((c - vx o) / vx u) then Fin ((c - vx o) / vx u) else PInf).
Proof.
  unfold distance. change (xhat (A := XRa)) with (pt (V3 1 0 0)). rewrite !pdot_pt; xr.
  unfold dot; cbn [vx vy vz].
  replace (c + - (vx o * 1 + vy o * 0 + vz o * 0)) with (c - vx o) by ring.
  replace (vx u * 1 + vy u * 0 + vz u * 0) with (vx u) by ring.
  unfold xdiv. destruct (Reqb_spec (vx u) 0); xr.
  - unfold xsinf. repeat rcase; reflexivity.
  - reflexivity.
Qed.

Lemma C07_planex_distance_proof :
  forall (c : R) (o u : vec),
    let reported := distance (PlaneX (A := XRa) (Fin c)) (pt o) (pt u) in
    let transversal (_ : vec) := vx u <> 0 in
    (some_crossing (on_planex c) transversal o u ->
       exists d, reported = Fin d
         /\ 0 < d /\ on_planex c (along o u d)
         /\ forall t, on_planex c (along o u t) -> t = d)
    /\ (~ some_crossing (on_planex c) transversal o u -> reported = PInf).
Proof.
  intros c o u reported transversal. unfold reported; rewrite planex_distance.
  unfold some_crossing, transversal, on_planex; cbn.
  split.
  - intros (t & P & Q & N). rewrite Reqb_false by auto.
    assert (E : (c - vx o) / vx u = t) by (rewrite <- Q; field; auto).
    rewrite E, Rltb_true by auto. exists t; repeat split; auto.
    intros t' Q'. apply Rmult_eq_reg_r with (vx u); auto. lra.
  - intros N. repeat rcase; auto. exfalso; apply N.
    eexists; split; [eassumption|split; [|auto]]. field; auto.
Qed.

(** ** Cylinder *)
Lemma unit_x : unit (V3 1 0 0).
Proof. apply unit_dot; unfold dot; cbn; ring. Qed.

Lemma cylinder_distance r o u : unit u ->
  distance (CylinderX (A := XRa) (Fin r)) (pt o) (pt u)
  = SolveQuadratic (A := XRa) (Fin (vy u * vy u + vz u * vz u))
      (Fin (2 * (vy o * vy u + vz o * vz u)))
      (Fin (vy o * vy o + vz o * vz o - r * r)).
Proof.
  intros Hu. unfold distance, dir_xyz.
  replace (mkPoint (A := XRa) (nofZ XRa 1) (nofZ XRa 0) (nofZ XRa 0)) with (pt (V3 1 0 0))
    by reflexivity.
  rewrite unit_norm1 by apply unit_x. rewrite !pdot_pt; xr.
  apply unit_dot in Hu. unfold dot in *; cbn in *.
  f_equal; f_equal; nra.
Qed.

Lemma cylinder_quad r o u t :
  vy (along o u t) * vy (along o u t) + vz (along o u t) * vz (along o u t) - r * r
  = quad (vy u * vy u + vz u * vz u) (2 * (vy o * vy u + vz o * vz u))
      (vy o * vy o + vz o * vz o - r * r) t.
Proof. unfold quad, along, vadd, vscale; cbn; ring. Qed.

Lemma on_cylinderx_quad r p : 0 < r ->
  on_cylinderx r p <-> vy p * vy p + vz p * vz p - r * r = 0.
Proof.
  intros Hr; unfold on_cylinderx, axis_distance.
  assert (P : 0 <= vy p * vy p + vz p * vz p) by nra.
  split; intros H.
  - pose proof (sqrt_sqrt _ P) as S2. rewrite H in S2. lra.
  - replace (vy p * vy p + vz p * vz p) with (r * r) by lra. apply sqrt_square; lra.
Qed.

Lemma C08_cylinderx_distance_proof :
  forall (r : R) (o u : vec),
    0 < r -> unit u ->
    let reported := distance (CylinderX (A := XRa) (Fin r)) (pt o) (pt u) in
    let transversal p := crosses_cylinderx p u in
    (some_crossing (on_cylinderx r) transversal o u ->
       exists d, reported = Fin d /\ first_crossing (on_cylinderx r) transversal o u d)
    /\ (~ some_crossing (on_cylinderx r) transversal o u -> reported = PInf)
    /\ (vy u = 0 -> vz u = 0 -> reported = PInf).
Proof.
  intros r o u Hr Hu reported transversal. unfold reported. rewrite cylinder_distance by auto.
  set (a := vy u * vy u + vz u * vz u).
  set (b := 2 * (vy o * vy u + vz o * vz u)).
  set (k := vy o * vy o + vz o * vz o - r * r).
  assert (On : forall t, on_cylinderx r (along o u t) <-> quad a b k t = 0).
  { intros t; rewrite on_cylinderx_quad, cylinder_quad by auto; tauto. }
  assert (Tr : forall t, transversal (along o u t) <-> 2 * a * t + b <> 0).
  { intros t; unfold transversal, crosses_cylinderx, a, b, along, vadd, vscale; cbn.
    split; intros H; intros H2; apply H; lra. }
  assert (Par : vy u = 0 -> vz u = 0 ->
                SolveQuadratic (A := XRa) (Fin a) (Fin b) (Fin k) = PInf).
  { intros Hy Hz. apply SolveQuadratic_none. unfold a, b. rewrite Hy, Hz. lra. }
  destruct (Req_dec a 0) as [A0|A0].
  - assert (vy u = 0) by (unfold a in A0; nra). assert (vz u = 0) by (unfold a in A0; nra).
    split; [|split; auto].
    intros (t & P & Q & N). apply Tr in N. exfalso. unfold a, b in N. rewrite H, H0 in N. lra.
  - assert (0 < a) by (unfold a in *; nra).
    destruct (SolveQuadratic_spec a b k) as (S1 & S2 & S3); [auto|].
    assert (Fc : forall d, SolveQuadratic (A := XRa) (Fin a) (Fin b) (Fin k) = Fin d ->
        first_crossing (on_cylinderx r) transversal o u d).
    { intros d E; destruct (S1 d E) as (P & Q & N & F). split; [auto|].
      rewrite On, Tr. split; [auto|split; [auto|]]. intros t Ht; rewrite On; auto. }
    split; [|split; auto].
    + intros (t & P & Q & N). destruct S2 as [d E].
      * exists t; rewrite <- On, <- Tr; auto.
      * exists d; auto.
    + intros N. destruct S3 as [E|[d E]]; auto.
      exfalso; apply N. destruct (Fc d E) as (P & Q & T & _). exists d; auto.
Qed.

(** ** Containment *)
Lemma sphere_contains c r p :
  contains (Sphere (pt c) (Fin r)) (pt p) = Rltb (dot (vsub p c) (vsub p c)) (r * r).
Proof. reflexivity. Qed.

Lemma planex_contains c p : contains (PlaneX (A := XRa) (Fin c)) (pt p) = Rltb (vx p) c.
Proof.
  unfold contains. change (xhat (A := XRa)) with (pt (V3 1 0 0)). rewrite pdot_pt; xr.
  unfold dot; cbn [vx vy vz]. f_equal; ring.
Qed.

Lemma cylinder_contains r p :
  contains (CylinderX (A := XRa) (Fin r)) (pt p) = Rltb (axis_distance p) (r * r).
Proof.
  unfold contains, dir_xyz.
  replace (mkPoint (A := XRa) (nofZ XRa 1) (nofZ XRa 0) (nofZ XRa 0)) with (pt (V3 1 0 0))
    by reflexivity.
  rewrite unit_norm1 by apply unit_x. rewrite !pdot_pt; xr.
  unfold axis_distance, dot; cbn.
  replace (_ + - _) with (vy p * vy p + vz p * vz p) by ring.
  rewrite Rltb_false by nra. reflexivity.
Qed.

Lemma Rltb_shift a b : Rltb a b = Rltb (a - b) 0.
Proof. repeat rcase; auto; lra. Qed.

Lemma C09_side_changes_at_distance_proof :
  forall (s : shape XRa) (o u : vec),
    sphere_or_plane s -> unit u -> ~ on_surface s o ->
    (forall d, distance s (pt o) (pt u) = Fin d ->
       0 < d
       /\ (forall t, 0 <= t < d -> contains s (pt (along o u t)) = contains s (pt o))
       /\ exists eps, 0 < eps /\ forall t, d < t < d + eps ->
            contains s (pt (along o u t)) = negb (contains s (pt o)))
    /\ (distance s (pt o) (pt u) = PInf ->
          forall t, 0 <= t -> contains s (pt (along o u t)) = contains s (pt o))
    /\ (distance s (pt o) (pt u) = PInf \/ exists d, distance s (pt o) (pt u) = Fin d).
Proof.
  intros s o u [c r Hr|x] Hu Off.
  - assert (Off' : dot (vsub o c) (vsub o c) - r * r <> 0).
    { intros H; apply Off. exists c; split; auto. apply on_sphere_quad; auto. }
    rewrite sphere_distance by auto.
    set (b := 2 * dot (vsub o c) u). set (k := dot (vsub o c) (vsub o c) - r * r) in *.
    assert (C : forall t, contains (Sphere (pt c) (Fin r)) (pt (along o u t))
                = Rltb (quad 1 b k t) 0).
    { intros t; rewrite sphere_contains, Rltb_shift, sphere_quad by auto; reflexivity. }
    assert (C0 : contains (Sphere (pt c) (Fin r)) (pt o) = Rltb k 0).
    { rewrite sphere_contains, Rltb_shift; reflexivity. }
    rewrite C0.
    destruct (Rle_lt_dec (b * b - 4 * 1 * k) 0) as [H|H].
    + rewrite SolveQuadratic_none by auto. split; [discriminate|split; [|auto]].
      intros _ t _. rewrite C.
      assert (0 <= quad 1 b k t) by (apply quad_touch; [lra|auto]).
      assert (0 <= quad 1 b k 0) by (apply quad_touch; [lra|auto]).
      unfold quad in H1. rewrite !Rltb_false; auto; lra.
    + destruct (SolveQuadratic_roots 1 b k) as (r1 & r2 & L & E & ->); [lra|auto|].
      assert (Ek : k = r1 * r2) by (pose proof (E 0) as E0; unfold quad in E0; lra).
      assert (r1 <> 0 /\ r2 <> 0) as [N1 N2] by (split; intros ->; apply Off'; rewrite Ek; ring).
      split; [|split; [|repeat rcase; eauto]].
      * intros d. destruct (Rltb_spec 0 r1) as [P1|P1].
        { intros [= <-]. split; [auto|split].
          - intros t Ht. rewrite C, E, Ek. rewrite !Rltb_false; auto; nra.
          - exists (r2 - r1). split; [lra|]. intros t Ht. rewrite C, E, Ek.
            rewrite Rltb_true, Rltb_false; auto; nra. }
        destruct (Rltb_spec 0 r2) as [P2|P2]; [|discriminate].
        intros [= <-]. split; [auto|split].
        { intros t Ht. rewrite C, E, Ek. rewrite !Rltb_true; auto; nra. }
        exists 1. split; [lra|]. intros t Ht. rewrite C, E, Ek.
        rewrite Rltb_false, Rltb_true; auto; nra.
      * destruct (Rltb_spec 0 r1); [discriminate|]. destruct (Rltb_spec 0 r2); [discriminate|].
        intros _ t Ht. rewrite C, E, Ek. rewrite !Rltb_false; auto; nra.
  - rewrite planex_distance. rewrite planex_contains.
    assert (Off' : vx o <> x) by (intros H; apply Off; exact H).
    assert (C : forall t, contains (PlaneX (A := XRa) (Fin x)) (pt (along o u t))
                          = Rltb (vx o + t * vx u) x)
      by (intros; apply planex_contains).
    destruct (Reqb_spec (vx u) 0) as [Z|NZ].
    + split; [discriminate|split; [|auto]]. intros _ t _. rewrite C, Z. f_equal; ring.
    + set (d := (x - vx o) / vx u). assert (Ed : d * vx u = x - vx o) by (unfold d; field; auto).
      assert (Sx : forall t, vx o + t * vx u - x = (t - d) * vx u) by (intros; nra).
      split; [|split; [|rcase; eauto]].
      * intros d'. destruct (Rltb_spec 0 d); [|discriminate]. intros [= <-].
        split; [auto|split].
        { intros t Ht. rewrite C. specialize (Sx t). repeat rcase; auto; exfalso; nra. }
        { exists 1; split; [lra|]. intros t Ht. rewrite C. specialize (Sx t).
          repeat rcase; auto; exfalso; nra. }
      * destruct (Rltb_spec 0 d); [discriminate|]. intros _ t Ht. rewrite C. specialize (Sx t).
        assert (d <> 0) by (intros E; rewrite E in Ed; lra).
        repeat rcase; auto; exfalso; nra.
Qed.

(** ** C10 *)
Lemma C10_cylinder_containment_refuted_proof :
  exists (r : R) (p : vec), 0 < r
    /\ contains (CylinderX (A := XRa) (Fin r)) (pt p) = true
    /\ ~ (axis_distance p < r).
Proof.
  exists 2, (V3 0 3 0). rewrite cylinder_contains.
  assert (E : axis_distance (V3 0 3 0) = 3).
  { unfold axis_distance; cbn. replace (3 * 3 + 0 * 0) with (3 * 3) by ring.
    apply sqrt_square; lra. }
  rewrite E. split; [lra|]. split; [apply Rltb_true; lra|lra].
Qed.

(** What containment does test, and the one radius for which it is right. *)
Lemma C10_cylinder_containment_partial_proof :
  forall (r : R) (p : vec), 0 < r ->
    (contains (CylinderX (A := XRa) (Fin r)) (pt p) = true <-> axis_distance p < r * r)
    /\ (r = 1 ->
        (contains (CylinderX (A := XRa) (Fin r)) (pt p) = true <-> axis_distance p < r)).
Proof.
  intros r p Hr. rewrite cylinder_contains.
  split; [|intros ->]; destruct (Rltb_spec (axis_distance p) (r * r)) as [H|H] || idtac;
    repeat rcase; split; intros; auto; try discriminate; try lra.
Qed.

(** Containment and the reported crossing distance describe the same surface only
    for r = 1: for any other radius there is a flight that changes containment
    strictly before the reported distance or not at all around it. *)
Lemma C10_cylinder_crossing_refuted_proof :
  forall r, 0 < r -> r <> 1 ->
  exists (o u : vec) (d : R),
    unit u /\ distance (CylinderX (A := XRa) (Fin r)) (pt o) (pt u) = Fin d
    /\ exists eps, 0 < eps /\ forall t, Rabs (t - d) < eps ->
         contains (CylinderX (A := XRa) (Fin r)) (pt (along o u t))
         = contains (CylinderX (A := XRa) (Fin r)) (pt (along o u d)).
Proof.
  intros r Hr H1.
  exists (V3 0 0 0), (V3 0 1 0), r.
  assert (Hu : unit (V3 0 1 0)) by (apply unit_dot; unfold dot; cbn; ring).
  split; [auto|split].
  - rewrite cylinder_distance by auto; cbn.
    destruct (SolveQuadratic_roots (1 * 1 + 0 * 0) (2 * (0 * 1 + 0 * 0)) (0 * 0 + 0 * 0 - r * r))
      as (r1 & r2 & L & E & ->); try nra.
    pose proof (E r) as Er; pose proof (E (- r)) as Em. unfold quad in *.
    assert (Q1 : (r - r1) * (r - r2) = 0) by nra.
    assert (Q2 : (- r - r1) * (- r - r2) = 0) by nra.
    apply Rmult_integral in Q1; apply Rmult_integral in Q2.
    assert (r1 = - r) by lra. assert (r2 = r) by lra. subst.
    rewrite Rltb_false, Rltb_true by lra. reflexivity.
  - set (e := Rabs (r * r - r)).
    assert (He : 0 < e) by (apply Rabs_pos_lt; nra).
    exists (Rmin e r). split; [apply Rmin_glb_lt; auto|].
    intros t Ht. rewrite !cylinder_contains.
    assert (T : Rabs (t - r) < e) by (pose proof (Rmin_l e r); lra).
    assert (T2 : Rabs (t - r) < r) by (pose proof (Rmin_r e r); lra).
    apply Rabs_def2 in T2.
    assert (X : forall s, 0 < s -> axis_distance (along (V3 0 0 0) (V3 0 1 0) s) = s).
    { intros s Hs. unfold axis_distance, along, vadd, vscale; cbn.
      replace (_ + _) with (s * s) by ring. apply sqrt_square; lra. }
    rewrite !X by lra. unfold e in T. apply Rabs_def2 in T.
    destruct (Rle_lt_dec r (r * r)).
    + rewrite Rabs_right in T by lra. rewrite !Rltb_true; auto; nra.
    + rewrite Rabs_left in T by lra. rewrite !Rltb_false; auto; nra.
Qed.
