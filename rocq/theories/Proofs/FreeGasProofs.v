(** Free-gas scattering over the reals. *)
From Coq Require Import Bool String List Reals ZArith NArith Lra Lia.
From Verif Require Import Model.Num Model.Outcome Model.Rng Model.Xml Model.Std Model.Point
  Model.Surface Model.Types Model.Field Model.Tables Model.Particle Model.Multigroup
  Model.Thermal Model.Continuous
  Spec.Vec Spec.RngSpec Spec.ContinuousSpec Spec.FreeGasSpec
  Proofs.RealLib Proofs.OutcomeLib Proofs.DirectionProofs Proofs.ContinuousProofs Proofs.RngProofs.
Import ListNotations.
Local Open Scope R_scope.

Lemma neutron_mass_real : neutron_mass (A := XRa) = Fin m_n.
Proof.
  change (neutron_mass (A := XRa)) with (Fin (1045354912280858 / IZR (10 ^ 33))).
  unfold m_n. rewrite (pow_IZR 10 33). reflexivity.
Qed.

Lemma m_n_pos : 0 < m_n.
Proof. unfold m_n. apply Rdiv_lt_0_compat; [lra|]. apply pow_lt. lra. Qed.

(** ** A uniform number *)
Lemma unif_open (G : Rng XRa) (p : particle XRa G) : open_rng G ->
  exists u, p_unif p = (Fin u : num XRa, set_rng p (snd (runif G (p_rng p))))
    /\ fst (runif G (p_rng p)) = Fin u /\ 0 < u < 1.
Proof.
  intros V. destruct (V (p_rng p)) as (u & E & H). exists u. split; auto.
  unfold p_unif. destruct (runif G (p_rng p)); cbn in *. now subst.
Qed.

Lemma unif_valid (G : Rng XRa) (p : particle XRa G) : valid_rng G ->
  exists u, p_unif p = (Fin u : num XRa, set_rng p (snd (runif G (p_rng p))))
    /\ fst (runif G (p_rng p)) = Fin u /\ 0 <= u < 1.
Proof.
  intros V. destruct (V (p_rng p)) as (u & E & H). exists u. split; auto.
  unfold p_unif. destruct (runif G (p_rng p)); cbn in *. now subst.
Qed.

(** ** C38 *)
Lemma acceptance_range x y mu : 0 <= x -> 0 < y -> -1 <= mu <= 1 ->
  0 <= x * x + y * y - 2 * x * y * mu /\ 0 <= acceptance x y mu <= 1.
Proof.
  intros Hx Hy Hm. assert (N : 0 <= x * x + y * y - 2 * x * y * mu).
  { assert (0 <= x * y) by nra. assert (2 * x * y * mu <= 2 * x * y) by nra.
    pose proof (Rle_0_sqr (x - y)) as Q. unfold Rsqr in Q. nra. }
  split; auto. unfold acceptance. split.
  - apply Rmult_le_pos; [apply sqrt_pos|]. left; apply Rinv_0_lt_compat; lra.
  - apply (Rmult_le_reg_r (x + y)); [lra|]. unfold Rdiv. rewrite Rmult_assoc, Rinv_l by lra.
    rewrite Rmult_1_r, Rmult_1_l. rewrite <- (sqrt_square (x + y)) by lra.
    assert (0 <= x * y) by nra. assert (0 <= x * y * (1 + mu)) by (apply Rmult_le_pos; lra).
    apply sqrt_le_1; nra.
Qed.

Lemma ln_neg u : 0 < u < 1 -> ln u < 0.
Proof. intros H. rewrite <- ln_1. apply ln_increasing; lra. Qed.

Lemma target_speed_nonneg y a b t c : 0 <= target_speed y a b t c.
Proof. unfold target_speed. destruct (Rlt_dec _ _); apply sqrt_pos. Qed.

Lemma set_rng_rng {A : Arith} {G : Rng A} (p : particle A G) s t :
  set_rng (set_rng p s) t = set_rng p t.
Proof. reflexivity. Qed.

Lemma C38_target_sampling_proof :
  forall (G : Rng XRa) (p : particle XRa G) (y : R) fuel,
  open_rng G -> 0 < y ->
  exists xi1 xi2 test xi3 v acc n x mu a,
    List.Forall (fun u => 0 < u < 1) [xi1; xi2; test; xi3; v; acc]
    (* numbers in the order in which they are drawn; the fourth only if needed *)
    /\ draw G 0 (p_rng p) = Fin xi1 /\ draw G 1 (p_rng p) = Fin xi2
    /\ draw G 2 (p_rng p) = Fin test /\ draw G 3 (p_rng p) = Fin xi3
    /\ n = (if Rlt_dec test (2 / (sqrt PI * y + 2)) then 3 else 4)%nat
    /\ draw G n (p_rng p) = Fin v /\ draw G (n + 1) (p_rng p) = Fin acc
    /\ x = target_speed y xi1 xi2 test xi3 /\ 0 <= x
    /\ mu = 2 * v - 1 /\ -1 <= mu < 1
    /\ a = acceptance x y mu /\ 0 <= a <= 1
    /\ free_gas_target (S fuel) (Fin y : num XRa) p =
         if Rlt_dec acc a
         then Ok (Fin x, Fin mu, set_rng p (advance G (n + 2) (p_rng p)))
         else free_gas_target fuel (Fin y : num XRa) (set_rng p (advance G (n + 2) (p_rng p))).
Proof.
  intros G p y fuel V Hy. cbn [free_gas_target].
  destruct (unif_open G p V) as (xi1 & E1 & F1 & H1). rewrite E1. clear E1.
  set (s1 := snd (runif G (p_rng p))).
  destruct (unif_open G (set_rng p s1) V) as (xi2 & E2 & F2 & H2). rewrite E2. clear E2.
  cbn [p_rng set_rng] in F2. rewrite set_rng_rng. cbn [p_rng set_rng].
  set (s2 := snd (runif G s1)) in *.
  destruct (unif_open G (set_rng p s2) V) as (test & E3 & F3 & H3). rewrite E3. clear E3.
  cbn [p_rng set_rng] in F3. rewrite set_rng_rng. cbn [p_rng set_rng].
  set (s3 := snd (runif G s2)) in *.
  destruct (unif_open G (set_rng p s3) V) as (xi3 & E4 & F4 & H4).
  cbn [p_rng set_rng] in F4, E4. rewrite set_rng_rng in E4. set (s4 := snd (runif G s3)) in *.
  rewrite E4. clear E4.
  set (x := target_speed y xi1 xi2 test xi3).
  (* the reduced speed, by either branch *)
  set (n := if Rlt_dec test (2 / (sqrt PI * y + 2)) then 3%nat else 4%nat).
  set (s5 := if Rlt_dec test (2 / (sqrt PI * y + 2)) then s3 else s4).
  assert (S5 : advance G n (p_rng p) = s5).
  { unfold n, s5. destruct (Rlt_dec test (2 / (sqrt PI * y + 2))); reflexivity. }
  assert (Q : 
    (if nltb XRa (Fin test)
          (ndiv XRa (nofZ XRa 2) (nadd XRa (nmul XRa (nsqrt XRa c_pi) (Fin y)) (nofZ XRa 2)))
     then (nsqrt XRa (nopp XRa (nlog XRa (nmul XRa (Fin xi1) (Fin xi2)))), set_rng p s3)
     else
       (nsqrt XRa
          (nsub XRa (nopp XRa (nlog XRa (Fin xi1)))
             (nmul XRa
                (nmul XRa (nlog XRa (Fin xi2))
                   (ncos XRa (ndiv XRa (nmul XRa c_pi (Fin xi3)) (nofZ XRa 2))))
                (ncos XRa (ndiv XRa (nmul XRa c_pi (Fin xi3)) (nofZ XRa 2))))), set_rng p s4))
    = (Fin x : num XRa, set_rng p s5)).
  { pose proof PI_RGT_0. pose proof (ln_neg _ H1). pose proof (ln_neg _ H2).
    assert (0 < sqrt PI) by (now apply sqrt_lt_R0).
    assert (E : ndiv XRa (nofZ XRa 2) (nadd XRa (nmul XRa (nsqrt XRa c_pi) (Fin y)) (nofZ XRa 2))
                = Fin (2 / (sqrt PI * y + 2))).
    { change (xdiv (Fin 2) (xadd (xmul (xsqrt (Fin PI)) (Fin y)) (Fin 2))
              = Fin (2 / (sqrt PI * y + 2))).
      rewrite xsqrt_fin by lra. cbn [xmul xadd]. apply xdiv_fin. nra. }
    rewrite E. change (nltb XRa (Fin test) (Fin (2 / (sqrt PI * y + 2))))
      with (Rltb test (2 / (sqrt PI * y + 2))).
    unfold x, target_speed, s5.
    destruct (Rltb_spec test (2 / (sqrt PI * y + 2))) as [L|L];
      destruct (Rlt_dec test (2 / (sqrt PI * y + 2))) as [L'|L']; try lra.
    - f_equal.
      change (xsqrt (xopp (xlog (Fin (xi1 * xi2)))) = Fin (sqrt (- ln (xi1 * xi2)))).
      assert (0 < xi1 * xi2 < 1) by nra.
      rewrite xlog_fin by lra. cbn [xopp]. apply xsqrt_fin. pose proof (ln_neg (xi1 * xi2)). lra.
    - f_equal.
      change (nlog XRa (Fin xi1)) with (xlog (Fin xi1)).
      change (nlog XRa (Fin xi2)) with (xlog (Fin xi2)).
      rewrite !xlog_fin by lra.
      assert (Ec : ncos XRa (ndiv XRa (nmul XRa c_pi (Fin xi3)) (nofZ XRa 2))
                   = Fin (cos (PI * xi3 / 2))).
      { change (xcos (xdiv (Fin (PI * xi3)) (Fin 2)) = Fin (cos (PI * xi3 / 2))).
        rewrite xdiv_fin by lra. reflexivity. }
      rewrite Ec. set (z := cos (PI * xi3 / 2)).
      change (xsqrt (Fin (- ln xi1 + - (ln xi2 * z * z))) =
              Fin (sqrt (- ln xi1 - ln xi2 * (z * z)))).
      assert (0 <= z * z) by nra.
      rewrite xsqrt_fin by nra. f_equal. f_equal. ring. }
  rewrite Q. clear Q.
  destruct (unif_open G (set_rng p s5) V) as (v & E5 & F5 & H5). rewrite E5. clear E5.
  cbn [p_rng set_rng] in F5. rewrite set_rng_rng. cbn [p_rng set_rng].
  set (s6 := snd (runif G s5)) in *.
  destruct (unif_open G (set_rng p s6) V) as (acc & E6 & F6 & H6). rewrite E6. clear E6.
  cbn [p_rng set_rng] in F6. rewrite set_rng_rng. cbn [p_rng set_rng].
  set (mu := 2 * v - 1).
  assert (Em : nsub XRa (nmul XRa (nofZ XRa 2) (Fin v)) (nofZ XRa 1) = Fin mu).
  { change (Fin (2 * v + - (1)) = Fin mu). f_equal. }
  rewrite Em. clear Em.
  assert (Hx : 0 <= x) by apply target_speed_nonneg.
  destruct (acceptance_range x y mu Hx Hy ltac:(unfold mu; lra)) as [N B].
  assert (S6 : forall k, advance G (n + S k) (p_rng p) = advance G k (snd (runif G s5))).
  { intros k. rewrite <- S5. clear. generalize (p_rng p).
    induction n as [|m IH]; intros t; [reflexivity|]. apply IH. }
  exists xi1, xi2, test, xi3, v, acc, n, x, mu, (acceptance x y mu).
  unfold draw. rewrite !S6, S5. cbn [advance].
  parts; auto; try (unfold mu; lra); try apply B.
  { repeat (constructor; auto). }
  assert (Ea : ndiv XRa
       (nsqrt XRa
          (nsub XRa (nadd XRa (nmul XRa (Fin x) (Fin x)) (nmul XRa (Fin y) (Fin y)))
             (nmul XRa (nmul XRa (nmul XRa (nofZ XRa 2) (Fin x)) (Fin y)) (Fin mu))))
       (nadd XRa (Fin x) (Fin y)) = Fin (acceptance x y mu)).
  { change (xdiv (xsqrt (Fin (x * x + y * y + - (2 * x * y * mu)))) (Fin (x + y))
            = Fin (acceptance x y mu)).
    rewrite xsqrt_fin by lra. rewrite xdiv_fin by lra. reflexivity. }
  rewrite Ea. change (nleb XRa (Fin (acceptance x y mu)) (Fin acc))
    with (Rleb (acceptance x y mu) acc).
  destruct (Rleb_spec (acceptance x y mu) acc); destruct (Rlt_dec acc (acceptance x y mu));
    try lra; reflexivity.
Qed.

Lemma C38_target_returned_proof :
  forall (G : Rng XRa) (y : R) fuel (p : particle XRa G) X M q,
  open_rng G -> 0 < y -> free_gas_target fuel (Fin y : num XRa) p = Ok (X, M, q) ->
  exists x mu s, X = Fin x /\ M = Fin mu /\ 0 <= x /\ -1 <= mu < 1 /\ q = set_rng p s.
Proof.
  intros G y fuel. induction fuel as [|fuel IH]; intros p X M q V Hy H; [discriminate|].
  destruct (C38_target_sampling_proof G p y fuel V Hy)
    as (? & ? & ? & ? & ? & acc & n & x & mu & a & _ & _ & _ & _ & _ & _ & _ & _ & _ & Hx & _ & Hm
        & _ & _ & E).
  rewrite E in H. destruct (Rlt_dec acc a).
  - injection H as <- <- <-. exists x, mu, (advance G (n + 2) (p_rng p)). auto.
  - destruct (IH _ X M q V Hy H) as (x' & mu' & s' & -> & -> & Q1 & Q2 & ->).
    exists x', mu', s'. parts; auto; lra.
Qed.

(** ** C37: vectors *)
Ltac vec_ring := unfold vadd, vsub, vscale, zero_vec; cbn [vx vy vz]; f_equal; ring.
Ltac vec_field := unfold vadd, vsub, vscale, zero_vec; cbn [vx vy vz]; f_equal; field; lra.
Ltac vec_ext := match goal with |- ?a = ?b =>
  enough (vx a = vx b /\ vy a = vy b /\ vz a = vz b) as (? & ? & ?);
  [destruct a, b; cbn in *; congruence|] end.

Lemma cauchy a b : dot a b * dot a b <= dot a a * dot b b.
Proof.
  destruct a as [a1 a2 a3], b as [b1 b2 b3]. unfold dot; cbn [vx vy vz].
  pose proof (Rle_0_sqr (a1 * b2 - a2 * b1)). pose proof (Rle_0_sqr (a1 * b3 - a3 * b1)).
  pose proof (Rle_0_sqr (a2 * b3 - a3 * b2)). unfold Rsqr in *. nra.
Qed.

Lemma unit_cosine a b : unit a -> unit b -> -1 <= dot a b <= 1.
Proof.
  intros Ha Hb. apply unit_dot in Ha, Hb. pose proof (cauchy a b) as C.
  rewrite Ha, Hb in C. nra.
Qed.

(** A linear isometry. *)
Record isometry (f : vec -> vec) : Prop := mkIso {
  iso_add : forall a b, f (vadd a b) = vadd (f a) (f b);
  iso_scale : forall t a, f (vscale t a) = vscale t (f a);
  iso_dot : forall a b, dot (f a) (f b) = dot a b
}.

Lemma iso_sub f a b : isometry f -> f (vsub a b) = vsub (f a) (f b).
Proof.
  intros I. replace (vsub a b) with (vadd a (vscale (-1) b)) by (destruct a, b; vec_ring).
  rewrite (iso_add f I), (iso_scale f I). destruct (f a), (f b); vec_ring.
Qed.

(** Two vectors of the same length and the same component along [d] are mirror
    images in a plane that contains [d]. *)
Lemma mirror d a b : dot a a = dot b b -> dot a d = dot b d ->
  exists f, isometry f /\ f d = d /\ f a = b.
Proof.
  intros Hn Hd. set (n := vsub a b). destruct (Req_dec (dot n n) 0) as [Z|Z].
  - apply dot_zero in Z. exists (fun x => x). split; [constructor; auto|]. split; auto.
    unfold n in Z. destruct a, b; unfold vsub, zero_vec in Z; cbn in Z.
    injection Z as ? ? ?. f_equal; lra.
  - exists (fun x => vsub x (vscale (2 * dot x n / dot n n) n)).
    assert (Dn : dot d n = 0).
    { unfold n. destruct a, b, d; unfold dot, vsub in *; cbn in *. lra. }
    assert (An : 2 * dot a n = dot n n).
    { unfold n in *. destruct a, b; unfold dot, vsub in *; cbn in *. lra. }
    split; [constructor|split].
    + intros x y. destruct x as [x1 x2 x3], y as [y1 y2 y3], n as [n1 n2 n3].
      unfold vsub, vadd, vscale, dot in *; cbn in *. f_equal; field; auto.
    + intros t x. destruct x as [x1 x2 x3], n as [n1 n2 n3].
      unfold vsub, vadd, vscale, dot in *; cbn in *. f_equal; field; auto.
    + intros x y. destruct x as [x1 x2 x3], y as [y1 y2 y3], n as [n1 n2 n3].
      unfold vsub, vadd, vscale, dot in *; cbn in *. field. auto.
    + rewrite Dn. destruct d as [d1 d2 d3], n as [n1 n2 n3]. unfold vsub, vscale; cbn.
      f_equal; unfold Rdiv; ring.
    + rewrite An. replace (dot n n / dot n n) with 1 by (field; auto).
      unfold n. destruct a, b; vec_ring.
Qed.

Lemma elastic_iso f awr v w v' w' mu : isometry f -> elastic awr v w v' w' mu ->
  elastic awr (f v) (f w) (f v') (f w') mu.
Proof.
  intros I [M E S C].
  assert (Ec : centre_of_mass awr (f v) (f w) = f (centre_of_mass awr v w)).
  { unfold centre_of_mass. now rewrite (iso_scale f I), (iso_add f I), (iso_scale f I). }
  constructor.
  - rewrite <- !(iso_scale f I), <- !(iso_add f I). now rewrite M.
  - rewrite !(iso_dot f I). exact E.
  - rewrite Ec. unfold dist, norm in *. rewrite <- !(iso_sub f _ _ I), !(iso_dot f I). exact S.
  - rewrite Ec. unfold dist, norm in *. rewrite <- !(iso_sub f _ _ I), !(iso_dot f I). exact C.
Qed.

Lemma balance awr v w z : 0 < awr ->
  vadd v (vscale awr w) = vadd z (vscale awr (vadd w (vscale (/ awr) (vsub v z)))).
Proof. intros Ha. destruct v, w, z; vec_field. Qed.

Lemma add_sub a b : a = vadd (vsub a b) b.
Proof. destruct a, b; vec_ring. Qed.

Lemma sub_add a b : vsub (vadd a b) b = a.
Proof. destruct a, b; vec_ring. Qed.

Lemma after awr c V V' :
  vadd (vsub c (vscale (/ awr) V)) (vscale (/ awr) (vsub (vadd V c) (vadd V' c)))
  = vsub c (vscale (/ awr) V').
Proof. destruct c, V, V'; vec_ring. Qed.

Lemma before awr v w : 0 < awr ->
  w = vsub (centre_of_mass awr v w) (vscale (/ awr) (vsub v (centre_of_mass awr v w))).
Proof.
  intros Ha. unfold centre_of_mass.
  destruct v, w; unfold vadd, vsub, vscale; cbn; f_equal; field; lra.
Qed.

(** What the kinematics of the code amount to. *)
Lemma elastic_kinematics awr v w e' :
  0 < awr -> let c := centre_of_mass awr v w in
  let V := vsub v c in
  V <> zero_vec -> unit e' ->
  let v' := vadd (vscale (norm V) e') c in
  elastic awr v w v' (vadd w (vscale (/ awr) (vsub v v'))) (dot e' (vscale (/ norm V) V)).
Proof.
  intros Ha c V Nz He v'. pose proof (norm_pos V Nz) as Pn. apply unit_dot in He.
  pose proof (dot_nonneg V) as Dn.
  assert (N2 : norm V * norm V = dot V V) by (apply sqrt_sqrt; auto).
  set (V' := vscale (norm V) e').
  assert (D' : dot V' V' = dot V V).
  { unfold V'. rewrite <- N2. clear - He. destruct e' as [a1 a2 a3]. unfold dot, vscale in *; cbn in *.
    transitivity (norm V * norm V * (a1 * a1 + a2 * a2 + a3 * a3)); [ring|]. rewrite He. ring. }
  assert (Ev : v = vadd V c). { apply add_sub. }
  assert (Ew : w = vsub c (vscale (/ awr) V)).
  { now apply before. }
  assert (Es : vsub v' c = V').
  { apply sub_add. }
  constructor.
  - now apply balance.
  - assert (Ew' : vadd w (vscale (/ awr) (vsub v v')) = vsub c (vscale (/ awr) V')).
    { transitivity (vadd (vsub c (vscale (/ awr) V)) (vscale (/ awr) (vsub (vadd V c) (vadd V' c))));
        [|apply after]. rewrite <- Ew, <- Ev. reflexivity. }
    rewrite Ew'. change v' with (vadd V' c).
    replace (dot v v) with (dot (vadd V c) (vadd V c)) by now rewrite <- Ev.
    replace (dot w w) with (dot (vsub c (vscale (/ awr) V)) (vsub c (vscale (/ awr) V)))
      by now rewrite <- Ew.
    clear - D' Ha. clearbody V V' c.
    destruct V as [a1 a2 a3], V' as [b1 b2 b3], c as [c1 c2 c3].
    unfold dot, vadd, vsub, vscale in *; cbn in *.
    transitivity ((1 + / awr) * (a1 * a1 + a2 * a2 + a3 * a3)
                  + (1 + awr) * (c1 * c1 + c2 * c2 + c3 * c3)); [field; lra|].
    rewrite <- D'. field. lra.
  - unfold dist, norm. fold c. rewrite Es. fold V. now rewrite D'.
  - fold c. rewrite Es. fold V. unfold dist. fold V. unfold V'.
    replace (dot e' (vscale (/ norm V) V)) with (/ norm V * dot V e')
      by (clear; destruct e', V; unfold dot, vscale; cbn; ring).
    replace (dot V (vscale (norm V) e')) with (norm V * dot V e')
      by (clear; destruct e', V; unfold dot, vscale; cbn; ring).
    field. lra.
Qed.

(** ** C37: the code *)

Lemma same_velocity awr v w : 0 < awr ->
  vsub v (centre_of_mass awr v w) = zero_vec -> v = w.
Proof.
  intros Ha Z. rewrite (before awr v w Ha) at 1. rewrite Z.
  rewrite (add_sub v (centre_of_mass awr v w)) at 1. rewrite Z.
  destruct (centre_of_mass awr v w); vec_ring.
Qed.

Lemma outgoing_real awr d s_n s_T mu phi mu_cm phi_cm :
  0 < awr -> unit d -> 0 < s_n -> 0 <= s_T -> -1 <= mu < 1 -> -1 <= mu_cm <= 1 ->
  let v := vscale s_n d in
  let w := vscale s_T (rotated d mu phi) in
  let V := vsub v (centre_of_mass awr v w) in
  let e' := rotated (vscale (/ norm V) V) mu_cm phi_cm in
  let v' := vadd (vscale (norm V) e') (centre_of_mass awr v w) in
  V <> zero_vec
  /\ snd (free_gas_outgoing (A := XRa) (Fin awr) (pt d) (Fin s_n) (Fin s_T) (Fin mu) (Fin phi)
            (Fin mu_cm) (Fin phi_cm)) = Fin (1 / 2 * m_n * dot v' v')
  /\ (v' <> zero_vec ->
      fst (free_gas_outgoing (A := XRa) (Fin awr) (pt d) (Fin s_n) (Fin s_T) (Fin mu) (Fin phi)
             (Fin mu_cm) (Fin phi_cm)) = Fin (dot d (vscale (/ norm v') v'))).
Proof.
  intros Ha Hd Hn HT Hm Hc v w V e' v'.
  assert (Hw : unit (rotated d mu phi)) by (apply rotated_unit; auto; lra).
  assert (Hwd : dot (rotated d mu phi) d = mu) by (apply rotated_cosine; auto).
  assert (Nz : V <> zero_vec).
  { intros Z.
    (* then neutron and nucleus have the same velocity *)
    assert (E : v = w).
    { now apply (same_velocity awr). }
    assert (E1 : dot v d = dot w d) by now rewrite E.
    assert (E2 : dot v v = dot w w) by now rewrite E.
    unfold v, w in E1, E2. rewrite !dot_scale_l in E1. rewrite !dot_scale_l, !dot_scale_r in E2.
    apply unit_dot in Hd, Hw. rewrite Hd, Hwd in E1. rewrite Hd, Hw in E2.
    assert (s_n = s_T) by nra. subst s_T. nra. }
  split; [exact Nz|].
  assert (Ue : unit (vscale (/ norm V) V)) by now apply unit_normalized.
  unfold free_gas_outgoing. rewrite !pscale_pt. fold v.
  rewrite dir_rotate_pt by (auto; lra). rewrite pscale_pt. fold w.
  rewrite pscale_pt, padd_pt.
  change (nadd XRa (nofZ XRa 1) (Fin awr)) with (Fin (1 + awr)).
  rewrite pdiv_pt by lra. fold (centre_of_mass awr v w). rewrite psub_pt. fold V.
  unfold dir_of_point. rewrite pnormalize_pt by auto. rewrite dir_rotate_pt by auto. fold e'.
  rewrite pdot_pt. change (nsqrt XRa (Fin (dot V V))) with (xsqrt (Fin (dot V V))).
  rewrite xsqrt_fin by apply dot_nonneg. fold (norm V). rewrite pscale_pt, padd_pt. fold v'.
  cbn [fst snd]. split.
  - rewrite pdot_pt, neutron_mass_real.
    change (xmul (xmul (Fin (5 / 10)) (Fin m_n)) (Fin (dot v' v')) = Fin (1 / 2 * m_n * dot v' v')).
    cbn [xmul]. f_equal. field.
  - intros Nv. rewrite pnormalize_pt by auto. apply pdot_pt.
Qed.

Lemma speed_real E : 0 < E ->
  nsqrt XRa (ndiv XRa (nmul XRa (nofZ XRa 2) (Fin E)) (Fin m_n)) = Fin (speed E).
Proof.
  intros HE. pose proof m_n_pos.
  change (xsqrt (xdiv (Fin (2 * E)) (Fin m_n)) = Fin (speed E)).
  rewrite xdiv_fin by lra. apply xsqrt_fin. apply Rlt_le, Rdiv_lt_0_compat; lra.
Qed.

Lemma inverse_speed_real awr T : 0 < awr -> 0 < T ->
  nsqrt XRa (ndiv XRa (nmul XRa (Fin awr) (Fin m_n))
               (nmul XRa (nmul XRa (nofZ XRa 2) (Fin k_B)) (Fin T))) = Fin (inverse_speed awr T).
Proof.
  intros Ha HT. pose proof m_n_pos. pose proof k_B_pos.
  assert (0 < 2 * k_B * T) by (apply Rmult_lt_0_compat; lra).
  change (xsqrt (xdiv (Fin (awr * m_n)) (Fin (2 * k_B * T))) = Fin (inverse_speed awr T)).
  rewrite xdiv_fin by lra. apply xsqrt_fin. apply Rlt_le, Rdiv_lt_0_compat; [nra|lra].
Qed.

Lemma free_gas_collision :
  forall (G : Rng XRa) (p q : particle XRa G) c fuel (awr E T : R) d X M p1,
  valid_rng G -> 0 < awr -> 0 < E -> 0 < T -> unit d ->
  p_energy p = ContinuousE (A := XRa) (Fin E) -> p_direction p = pt d ->
  p_cell p = Some c -> field_at (c_temperature c) (p_position p) = Fin T ->
  (* the reduced speed and cosine drawn for the target *)
  free_gas_target fuel (Fin (inverse_speed awr T * speed E) : num XRa) p = Ok (X, M, p1) ->
  forall x mu, X = Fin x -> M = Fin mu -> 0 <= x -> -1 <= mu < 1 ->
  (* the number drawn for the centre-of-mass angle, the second after those *)
  forall u, fst (runif G (snd (runif G (p_rng p1)))) = Fin u ->
  free_gas_scatter fuel (Fin awr : num XRa) p = Ok q ->
  exists w v' w',
    let v := vscale (speed E) d in
    (* the nucleus has the sampled speed and cosine *)
    norm w = x / inverse_speed awr T /\ dot w d = mu * norm w
    /\ elastic awr v w v' w' (2 * u - 1)
    (* energy and direction of the particle afterwards are those of [v'] *)
    /\ p_energy q = ContinuousE (A := XRa) (Fin (1 / 2 * m_n * dot v' v'))
    /\ (v' <> zero_vec -> exists d', p_direction q = pt d' /\ unit d' /\ v' = vscale (norm v') d').
Proof.
  intros G p q c fuel awr E T d X M p1 V Ha HE HT Hd Ep Ed Ec Ef Et x mu -> -> Hx Hm u Eu Hq.
  pose proof m_n_pos as Pm. pose proof k_B_pos as Pk.
  assert (Ps : 0 < speed E). { apply sqrt_lt_R0, Rdiv_lt_0_compat; lra. }
  assert (Pb : 0 < inverse_speed awr T).
  { apply sqrt_lt_R0, Rdiv_lt_0_compat; [nra|]. apply Rmult_lt_0_compat; lra. }
  unfold free_gas_scatter in Hq. rewrite Ep in Hq. cbn [get_continuous bind] in Hq.
  unfold get_cell in Hq. rewrite Ec in Hq. cbn [bind] in Hq.
  rewrite Ef, neutron_mass_real, boltzmann_real in Hq.
  rewrite speed_real, inverse_speed_real in Hq by auto.
  change (nmul XRa (Fin (inverse_speed awr T)) (Fin (speed E)))
    with (Fin (inverse_speed awr T * speed E)) in Hq.
  rewrite Et in Hq. cbn [bind] in Hq.
  set (s_T := x / inverse_speed awr T).
  assert (PT : 0 <= s_T).
  { apply Rmult_le_pos; auto. left. now apply Rinv_0_lt_compat. }
  replace (ndiv XRa (Fin x) (Fin (inverse_speed awr T))) with (Fin s_T : num XRa) in Hq
    by (symmetry; apply xdiv_fin; lra).
  destruct (unif_valid G p1 V) as (u1 & E1 & F1 & H1). rewrite E1 in Hq. clear E1.
  set (s1 := snd (runif G (p_rng p1))) in *.
  destruct (unif_valid G (set_rng p1 s1) V) as (u2 & E2 & F2 & H2). rewrite E2 in Hq. clear E2.
  cbn [p_rng set_rng] in F2. rewrite Eu in F2. injection F2 as <-.
  rewrite set_rng_rng in Hq. cbn [p_rng set_rng] in Hq. set (s2 := snd (runif G s1)) in *.
  destruct (unif_valid G (set_rng p1 s2) V) as (u3 & E3 & F3 & H3). rewrite E3 in Hq. clear E3.
  rewrite set_rng_rng in Hq. cbn [p_rng set_rng] in Hq. set (s3 := snd (runif G s2)) in *.
  assert (Dp : p_direction p1 = pt d).
  { pose proof (StepLib.free_gas_target_drew fuel (Fin (inverse_speed awr T * speed E) : num XRa)
                  p _ _ _ Et) as D. unfold StepLib.drew in D.
    rewrite D in *. cbn [p_direction set_rng]. exact Ed. }
  cbn [p_direction set_rng] in Hq. rewrite Dp in Hq.
  unfold c_pi in Hq.
  change (npi XRa) with (Fin PI : num XRa) in Hq.
  change (nmul XRa (nmul XRa (nofZ XRa 2) (Fin PI)) (Fin u1)) with (Fin (2 * PI * u1) : num XRa) in Hq.
  change (nmul XRa (nmul XRa (nofZ XRa 2) (Fin PI)) (Fin u3)) with (Fin (2 * PI * u3) : num XRa) in Hq.
  change (nsub XRa (nmul XRa (nofZ XRa 2) (Fin u)) (nofZ XRa 1)) with (Fin (2 * u - 1) : num XRa) in Hq.
  set (v := vscale (speed E) d). set (w0 := vscale s_T (rotated d mu (2 * PI * u1))).
  set (W := vsub v (centre_of_mass awr v w0)).
  set (e' := rotated (vscale (/ norm W) W) (2 * u - 1) (2 * PI * u3)).
  set (v0 := vadd (vscale (norm W) e') (centre_of_mass awr v w0)).
  destruct (outgoing_real awr d (speed E) s_T mu (2 * PI * u1) (2 * u - 1) (2 * PI * u3))
    as (Nz & Eo & Fo); auto; try lra.
  fold v w0 in Nz, Eo, Fo. fold W in Nz, Eo, Fo. fold e' in Eo, Fo. fold v0 in Eo, Fo.
  revert Hq Eo Fo.
  destruct (free_gas_outgoing (A := XRa) (Fin awr) (pt d) (Fin (speed E)) (Fin s_T) (Fin mu)
              (Fin (2 * PI * u1)) (Fin (2 * u - 1)) (Fin (2 * PI * u3))) as [mu_lab E'] eqn:O.
  cbn [fst snd]. intros Hq Eo Fo. subst E'. injection Hq as <-.
  assert (Uw : unit (rotated d mu (2 * PI * u1))) by (apply rotated_unit; auto; lra).
  assert (Cw : dot (rotated d mu (2 * PI * u1)) d = mu) by (apply rotated_cosine; auto).
  assert (Ue : unit (vscale (/ norm W) W)) by now apply unit_normalized.
  assert (Ue' : unit e') by (apply rotated_unit; auto; lra).
  pose proof (elastic_kinematics awr v w0 e' Ha Nz Ue') as El. fold W in El. cbv zeta in El.
  fold v0 in El.
  assert (Ce : dot e' (vscale (/ norm W) W) = 2 * u - 1) by now apply rotated_cosine.
  rewrite Ce in El. set (w0' := vadd w0 (vscale (/ awr) (vsub v v0))) in El.
  assert (Nw : norm w0 = s_T).
  { unfold norm, w0. rewrite dot_scale_l, dot_scale_r. apply unit_dot in Uw. rewrite Uw.
    rewrite Rmult_1_r. now apply sqrt_square. }
  assert (Dw : dot w0 d = mu * s_T).
  { unfold w0. rewrite dot_scale_l, Cw. ring. }
  (* the new direction differs from that of v0 by an azimuth only *)
  assert (Mir : exists f, isometry f /\ f d = d /\
     (v0 <> zero_vec -> exists d', p_direction (p_scatter (set_rng p1 s3) mu_lab
         (ContinuousE (A := XRa) (Fin (1 / 2 * m_n * dot v0 v0)))) = pt d'
       /\ unit d' /\ f v0 = vscale (norm v0) d')).
  { assert (Dec : v0 = zero_vec \/ v0 <> zero_vec).
    { destruct (Req_dec (dot v0 v0) 0) as [Z|Z]; [left; now apply dot_zero|right].
      intros Z'. apply Z. rewrite Z'. unfold dot, zero_vec; cbn; ring. }
    destruct Dec as [Z|Z].
    { exists (fun x => x). split; [constructor; auto|]. split; auto. intros N. now destruct N. }
    specialize (Fo Z). subst mu_lab.
    assert (Uv : unit (vscale (/ norm v0) v0)) by now apply unit_normalized.
    pose proof (unit_cosine d (vscale (/ norm v0) v0) Hd Uv) as Cv.
    set (cosine := dot d (vscale (/ norm v0) v0)) in *.
    unfold p_scatter.
    destruct (unif_valid G (set_indirect (set_rng p1 s3) (map (fun y => (fst y, nadd XRa (snd y) (nofZ XRa 0)))
      (p_indirect (set_rng p1 s3)))) V) as (u4 & E4 & _ & H4).
    rewrite E4. clear E4. cbn [p_direction set_energy set_direction set_rng set_indirect].
    rewrite Dp. unfold c_pi. change (npi XRa) with (Fin PI : num XRa).
    change (nmul XRa (nmul XRa (nofZ XRa 2) (Fin PI)) (Fin u4)) with (Fin (2 * PI * u4) : num XRa).
    rewrite dir_rotate_pt by auto.
    assert (Ud : unit (rotated d cosine (2 * PI * u4))) by now apply rotated_unit.
    assert (Cd : dot (rotated d cosine (2 * PI * u4)) d = cosine) by now apply rotated_cosine.
    pose proof (norm_pos v0 Z) as Pv.
    destruct (mirror d v0 (vscale (norm v0) (rotated d cosine (2 * PI * u4)))) as (f & If & Fd & Fa).
    - rewrite dot_scale_l, dot_scale_r. apply unit_dot in Ud. rewrite Ud, Rmult_1_r.
      symmetry. apply sqrt_sqrt, dot_nonneg.
    - rewrite dot_scale_l, Cd. unfold cosine. rewrite dot_scale_r, dot_comm. field. lra.
    - exists f. split; auto. split; auto. intros _.
      exists (rotated d cosine (2 * PI * u4)). auto. }
  destruct Mir as (f & If & Fd & Mir).
  exists (f w0), (f v0), (f w0'). cbv zeta. parts.
  - unfold norm. rewrite (iso_dot f If). exact Nw.
  - rewrite <- Fd at 1. unfold norm. rewrite !(iso_dot f If). fold (norm w0). rewrite Nw. exact Dw.
  - assert (Ev : f v = v). { unfold v. now rewrite (iso_scale f If), Fd. }
    rewrite <- Ev at 1. now apply elastic_iso.
  - rewrite (iso_dot f If). unfold p_scatter. destruct (p_unif _). reflexivity.
  - intros Z. destruct Mir as (d' & Q3 & Q4 & Q5).
    + intros Z'. apply Z. rewrite Z'. apply dot_zero. rewrite (iso_dot f If).
      unfold dot, zero_vec; cbn; ring.
    + exists d'. parts; auto. unfold norm at 1. rewrite (iso_dot f If). exact Q5.
Qed.

Lemma free_gas_scatter_collision :
  forall (G : Rng XRa) (p q : particle XRa G) c fuel (awr E T : R) d,
  open_rng G -> 0 < awr -> 0 < E -> 0 < T -> unit d ->
  p_energy p = ContinuousE (A := XRa) (Fin E) -> p_direction p = pt d ->
  p_cell p = Some c -> field_at (c_temperature c) (p_position p) = Fin T ->
  free_gas_scatter fuel (Fin awr : num XRa) p = Ok q ->
  exists x mu p1 u w v' w',
    let v := vscale (speed E) d in
    (* the reduced speed and the cosine drawn for the nucleus *)
    free_gas_target fuel (Fin (inverse_speed awr T * speed E) : num XRa) p
      = Ok (Fin x, Fin mu, p1)
    /\ norm w = x / inverse_speed awr T /\ dot w d = mu * norm w
    (* the number drawn for the centre-of-mass cosine, the second one after those *)
    /\ fst (runif G (snd (runif G (p_rng p1)))) = Fin u
    /\ elastic awr v w v' w' (2 * u - 1)
    (* energy and direction of the particle afterwards are those of [v'] *)
    /\ p_energy q = ContinuousE (A := XRa) (Fin (1 / 2 * m_n * dot v' v'))
    /\ (v' <> zero_vec -> exists d', p_direction q = pt d' /\ unit d' /\ v' = vscale (norm v') d').
Proof.
  intros G p q c fuel awr E T d V Ha HE HT Hd Ep Ed Ec Ef Hq.
  pose proof m_n_pos as Pm. pose proof k_B_pos as Pk.
  assert (Py : 0 < inverse_speed awr T * speed E).
  { apply Rmult_lt_0_compat; apply sqrt_lt_R0, Rdiv_lt_0_compat; try lra; [nra|].
    apply Rmult_lt_0_compat; lra. }
  destruct (free_gas_target fuel (Fin (inverse_speed awr T * speed E) : num XRa) p)
    as [[[X M] p1]| | | | ] eqn:Et.
  1: { destruct (C38_target_returned_proof G _ fuel p X M p1 V Py Et)
         as (x & mu & s & -> & -> & Hx & Hm & _).
       destruct (unif_valid G (set_rng p1 (snd (runif G (p_rng p1)))) (open_valid G V))
         as (u & _ & Eu & _). cbn [p_rng set_rng] in Eu.
       destruct (free_gas_collision G p q c fuel awr E T d (Fin x) (Fin mu) p1 (open_valid G V)
                   Ha HE HT Hd Ep Ed Ec Ef Et x mu eq_refl eq_refl Hx Hm u Eu Hq)
         as (w & v' & w' & Q1 & Q2 & Q3 & Q4 & Q5).
       exists x, mu, p1, u, w, v', w'. cbv zeta. parts; auto. }
  all: exfalso; unfold free_gas_scatter in Hq; rewrite Ep in Hq; cbn [get_continuous bind] in Hq;
    unfold get_cell in Hq; rewrite Ec in Hq; cbn [bind] in Hq;
    rewrite Ef, neutron_mass_real, boltzmann_real in Hq;
    rewrite speed_real, inverse_speed_real in Hq by auto;
    change (nmul XRa (Fin (inverse_speed awr T)) (Fin (speed E)))
      with (Fin (inverse_speed awr T * speed E)) in Hq;
    rewrite Et in Hq; discriminate.
Qed.

Lemma C37_free_gas_collision_proof :
  forall (G : Rng XRa) (p q : particle XRa G) c ev tsl fuel (awr E T : R) d,
  open_rng G -> 0 < awr -> 0 < E -> 0 < T -> unit d ->
  p_energy p = ContinuousE (A := XRa) (Fin E) -> p_direction p = pt d ->
  p_cell p = Some c -> field_at (c_temperature c) (p_position p) = Fin T ->
  (* the thermal data, if any, does not apply to this particle *)
  tsl_applies tsl p = Ok false ->
  cr_interact fuel (CScatter (A := XRa) ev tsl (Fin awr)) p = Ok q ->
  p_event q = scatter /\
  exists x mu p1 u w v' w',
    let v := vscale (speed E) d in
    (* the reduced speed and the cosine drawn for the nucleus *)
    free_gas_target fuel (Fin (inverse_speed awr T * speed E) : num XRa) (set_event p scatter)
      = Ok (Fin x, Fin mu, p1)
    /\ norm w = x / inverse_speed awr T /\ dot w d = mu * norm w
    (* the number drawn for the centre-of-mass cosine, the second one after those *)
    /\ draw G 1 (p_rng p1) = Fin u
    /\ elastic awr v w v' w' (2 * u - 1)
    (* energy and direction of the particle afterwards are those of [v'] *)
    /\ p_energy q = ContinuousE (A := XRa) (Fin (1 / 2 * m_n * dot v' v'))
    /\ (v' <> zero_vec -> exists d', p_direction q = pt d' /\ unit d' /\ v' = vscale (norm v') d').
Proof.
  intros G p q c ev tsl fuel awr E T d V Ha HE HT Hd Ep Ed Ec Ef Et Hq.
  unfold cr_interact in Hq. apply -> @noexcept_ok in Hq.
  assert (Et' : tsl_applies tsl (set_event p scatter) = Ok false).
  { rewrite <- Et. destruct tsl; reflexivity. }
  rewrite Et' in Hq. cbn [bind] in Hq. split.
  - destruct (StepLib.free_gas_place _ _ _ _ Hq). assumption.
  - apply (free_gas_scatter_collision G (set_event p scatter) q c fuel awr E T d); auto.
Qed.
