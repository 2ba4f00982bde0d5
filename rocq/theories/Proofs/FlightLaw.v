(** The chance of reaching the surface ahead: property C98. *)
From Coq Require Import Bool String List Reals ZArith NArith Lra Lia.
From Coquelicot Require Import Coquelicot.
From Verif Require Import Model.Num Model.Outcome Model.Rng Model.Xml Model.Std Model.Point
  Model.Surface Model.Types Model.Field Model.Tables Model.Particle Model.Multigroup
  Model.Continuous Model.Material Model.World Model.Perturbation Model.Transport
  Spec.Vec Spec.RngSpec Spec.ChanceSpec Spec.FlightLawSpec
  Proofs.OutcomeLib Proofs.RealLib Proofs.RngProofs Proofs.StreamProofs Proofs.StepLib
  Proofs.BinsProofs Proofs.ContinuousProofs Proofs.CrossingProofs Proofs.WellPosed
  Proofs.ChanceLib.
Import ListNotations.
Local Open Scope R_scope.

(** ** The exponential, term by term *)

Fixpoint Ex (k : nat) (z : R) : R :=
  match k with O => 0 | S k' => Ex k' z + z ^ k' / INR (fact k') end.

Lemma Ex_derive k : forall z, is_derive (Ex (S k)) z (Ex k z).
Proof.
  induction k as [|k IH]; intros z.
  - cbn [Ex pow fact]. apply (is_derive_ext (fun _ => 0 + 1 / INR 1)); [reflexivity|].
    exact (is_derive_const (V := R_NormedModule) (0 + 1 / INR 1) z).
  - apply (is_derive_plus (V := R_NormedModule) (Ex (S k)) (fun y => y ^ S k / INR (fact (S k)))).
    + apply IH.
    + assert (F : INR (fact k) <> 0) by apply INR_fact_neq_0.
      assert (F' : INR (fact (S k)) <> 0) by apply INR_fact_neq_0.
      evar_last.
      * apply (is_derive_ext (fun y => / INR (fact (S k)) * y ^ S k)).
        { intros y. unfold Rdiv. apply Rmult_comm. }
        apply (is_derive_scal (fun y => y ^ S k) z (/ INR (fact (S k)))).
        apply (is_derive_pow (fun y => y) (S k) z 1).
        apply (is_derive_id (K := R_AbsRing) z).
      * change (pred (S k)) with k. rewrite fact_simpl, mult_INR. field. split; auto.
        apply not_0_INR. lia.
Qed.

Lemma Ex_continuous k z : Continuity.continuous (Ex k) z.
Proof.
  destruct k.
  - apply (continuous_ext (fun _ => 0)); [reflexivity|]. apply continuous_const.
  - apply (ex_derive_continuous (V := R_NormedModule)). eexists. apply Ex_derive.
Qed.

Lemma Ex_0 k : Ex (S k) 0 = 1.
Proof.
  induction k as [|k IH].
  - cbn. field.
  - change (Ex (S k) 0 + 0 ^ S k / INR (fact (S k)) = 1). rewrite IH, pow_i by lia.
    unfold Rdiv. ring.
Qed.

Lemma Ex_limit z : is_lim_seq (fun k => Ex k z) (exp z).
Proof.
  apply is_lim_seq_incr_1.
  pose proof (is_exp_Reals z) as P. unfold is_pseries, is_series in P.
  change (is_lim_seq (sum_n (fun k => scal (pow_n z k) (/ INR (fact k)))) (exp z)) in P.
  eapply is_lim_seq_ext; [|exact P].
  intros n. induction n as [|n IH].
  - rewrite sum_O. cbn. unfold scal; cbn; unfold mult; cbn. unfold one; cbn. field.
  - rewrite sum_Sn, IH. change (Ex (S (S n)) z) with (Ex (S n) z + z ^ S n / INR (fact (S n))).
    rewrite pow_n_pow. unfold plus, scal; cbn -[fact pow Ex]. unfold mult; cbn -[fact pow Ex].
    unfold Rdiv. ring.
Qed.

Lemma step_integral (mu sig r : R) k : 0 < mu -> 0 <= r ->
  integral (fun u => (1 - sig / mu) *
      (exp (- (mu * (r + ln (1 - u) / mu))) * Ex k ((mu - sig) * (r + ln (1 - u) / mu))))
    0 (1 - exp (- (mu * r)))
    (exp (- (mu * r)) * (Ex (S k) ((mu - sig) * r) - 1)).
Proof.
  intros Hm Hr.
  set (us := 1 - exp (- (mu * r))).
  assert (P : 0 < exp (- (mu * r))) by apply exp_pos.
  assert (P1 : exp (- (mu * r)) <= 1).
  { rewrite <- exp_0. destruct (Req_dec r 0) as [->|]; [right; f_equal; ring|].
    left. apply exp_increasing. assert (0 < r) by lra. nra. }
  set (y := fun u => (mu - sig) * (r + ln (1 - u) / mu)).
  set (F := fun u => - exp (- (mu * r)) * Ex (S k) (y u)).
  set (dF := fun u => exp (- (mu * r)) * ((1 - sig / mu) / (1 - u)) * Ex k (y u)).
  assert (Dy : forall u, u < 1 -> is_derive y u (- ((mu - sig) / mu / (1 - u)))).
  { intros u Hu. unfold y. auto_derive; [lra|]. field. split; lra. }
  assert (I : integral dF 0 us (F us - F 0)).
  { apply (is_RInt_derive (V := R_CompleteNormedModule) F dF 0 us).
    - intros u Hu. rewrite Rmin_left, Rmax_right in Hu by (unfold us; lra).
      assert (u < 1) by (unfold us in Hu; lra).
      unfold F, dF. evar_last.
      + apply (is_derive_scal (fun u => Ex (S k) (y u)) u (- exp (- (mu * r)))).
        apply (is_derive_comp (Ex (S k)) y); [apply Ex_derive|now apply Dy].
      + unfold scal; cbn -[Ex]. unfold mult; cbn -[Ex]. field. split; lra.
    - intros u Hu. rewrite Rmin_left, Rmax_right in Hu by (unfold us; lra).
      assert (u < 1) by (unfold us in Hu; lra).
      unfold dF. apply (continuous_mult (K := R_AbsRing)).
      + apply (ex_derive_continuous (V := R_NormedModule)). auto_derive. lra.
      + apply continuous_comp; [|apply Ex_continuous].
        apply (ex_derive_continuous (V := R_NormedModule)). eexists. now apply Dy. }
  assert (Y0 : y us = 0).
  { unfold y, us. replace (1 - (1 - exp (- (mu * r)))) with (exp (- (mu * r))) by ring.
    rewrite ln_exp. field. lra. }
  assert (Y1 : y 0 = (mu - sig) * r).
  { unfold y. rewrite Rminus_0_r, ln_1. field. lra. }
  replace (exp (- (mu * r)) * (Ex (S k) ((mu - sig) * r) - 1)) with (F us - F 0).
  2:{ unfold F. rewrite Y0, Y1, Ex_0. ring. }
  revert I. apply integral_ext; [unfold us; lra|].
  intros u Hu. assert (u < 1) by (unfold us in Hu; lra).
  unfold dF. fold (y u).
  replace (- (mu * (r + ln (1 - u) / mu))) with (- (mu * r) + - ln (1 - u)) by (field; lra).
  match goal with |- @eq _ ?a ?b => change (@eq R a b) end.
  rewrite exp_plus, exp_Ropp, exp_Ropp, exp_ln by lra. field.
  repeat split; try lra. apply Rgt_not_eq, exp_pos.
Qed.

(** ** One step of the flight *)

Lemma mapM_pure {X Y} (f : X -> Y) l : mapM (fun x => Ok (f x)) l = Ok (map f l).
Proof. induction l as [|x l IH]; cbn [mapM map]; [reflexivity|]. rewrite IH. reflexivity. Qed.

Lemma mapM_same {X Y} (f g : X -> outcome Y) l : (forall x, f x = g x) -> mapM f l = mapM g l.
Proof. intros E. induction l as [|x l IH]; cbn [mapM]; [reflexivity|]. now rewrite E, IH. Qed.

(** The effects of perturbations after a flight of length [s] where collisions have
    density [T]. *)
Definition effects (m : material XRa) (T s : R) (q : particle XRa Given)
    : list (perturbation XRa * xr) :=
  map (fun x : perturbation XRa * xr =>
         (fst x, nadd XRa (snd x)
            (if existsb (fun y => Nat.eqb (nu_id (fst y)) (nu_id (pt_nuclide (fst x)))) (m_afracs m)
             then nsub XRa (ndiv XRa (nofZ XRa 1) (Fin T)) (Fin s) else nofZ XRa 0)))
      (p_indirect q).

Lemma stream_is t m T s o v x (q : particle XRa Given) :
  get_material q = Ok m -> collision_density t q = Ok (Fin T) ->
  p_position q = pt (along o v x) -> p_direction q = pt v ->
  stream t q (Fin s)
  = Ok (set_position (set_indirect q (effects m T s q)) (pt (along o v (x + s)))).
Proof.
  intros Gm Cd Ep Ed. unfold stream.
  assert (E : mapM (fun x => bind (pert_stream t (fst x) q (Fin s))
                               (fun e => Ok (fst x, nadd XRa (snd x) e))) (p_indirect q)
              = Ok (effects m T s q)).
  { unfold effects. rewrite <- mapM_pure. apply mapM_same. intros y. unfold pert_stream.
    rewrite Gm. cbn [bind]. destruct (existsb _ _); [rewrite Cd|]; reflexivity. }
  change (num XRa) with xr in *. rewrite E. cbn [bind noexcept].
  rewrite Ep, Ed, pscale_pt, padd_pt. fold (along (along o v x) v s). now rewrite along_add.
Qed.

Section Flight.
  Variables (fuel : nat) (w : world XRa) (p : particle XRa Given) (o v : vec) (c : cell XRa)
    (m : material XRa) (D d M : R) (sigma : R -> R).
  Hypothesis F : flight w p o v c m D d M sigma.

  Lemma flight_rng x q l : after p o v x q -> after p o v x (set_rng q l).
  Proof. intros [? ? ? ? ?]. constructor; auto. Qed.

  Lemma flight_cell x q : after p o v x q -> get_cell q = Ok c.
  Proof. intros H. unfold get_cell. rewrite (af_cell _ _ _ _ _ H), (fl_cell _ _ _ _ _ _ _ _ _ _ F). reflexivity. Qed.

  Lemma flight_material x q : after p o v x q -> get_material q = Ok m.
  Proof.
    intros H. unfold get_material. rewrite (flight_cell x q H). cbn [bind].
    rewrite (fl_material _ _ _ _ _ _ _ _ _ _ F). reflexivity.
  Qed.

  Definition density_at (t : tracking) (x : R) : R :=
    match t with SurfaceTracking => sigma x | CellDeltaTracking => M end.

  Lemma flight_density t x q : 0 <= x < D -> after p o v x q ->
    collision_density t q = Ok (Fin (density_at t x)).
  Proof.
    intros Hx H. unfold collision_density. rewrite (flight_material x q H). cbn [bind].
    destruct (fl_total _ _ _ _ _ _ _ _ _ _ F x q Hx H) as [T1 T2].
    destruct t; [rewrite T1|rewrite T2]; reflexivity.
  Qed.

  Lemma flight_distance t x q u l : 0 <= x < D -> after p o v x q -> 0 < u < 1 ->
    0 < density_at t x ->
    sample_distance t (set_rng q (u :: l))
    = Ok (Fin (- ln (1 - u) / (d * density_at t x)), set_rng q l).
  Proof.
    intros Hx H Hu Hd. pose proof (flight_rng x q (u :: l) H) as H'.
    destruct (fl_density _ _ _ _ _ _ _ _ _ _ F) as [Ed Pd].
    unfold sample_distance. rewrite (flight_material x _ H'). cbn [bind].
    rewrite (flight_density t x _ Hx H'). cbn [bind]. rewrite Ed.
    change (nmul XRa (Fin d) (Fin (density_at t x))) with (Fin (d * density_at t x)).
    pose proof (exponential_fin Given (p_rng (set_rng q (u :: l))) u (d * density_at t x)) as E.
    cbn [p_rng set_rng] in E |- *. rewrite E; [reflexivity| |lra|nra]. cbn. now rewrite inside_is.
  Qed.

  (** The surface is crossed when it is nearer than the collision. *)
  Lemma flight_cross t x q s : 0 <= x < D -> after p o v x q -> 
    exists q', cross_surface t w s (Fin (D - x)) q = Ok q'
      /\ (p_event q' = surface_cross \/ p_event q' = leak).
  Proof.
    intros Hx H. destruct (fl_behind _ _ _ _ _ _ _ _ _ _ F) as (k & c' & Ek & Ec).
    unfold cross_surface. change (num XRa) with xr in *. rewrite Ek.
    change (nadd XRa (Fin (D - x)) (Fin k)) with (Fin (D - x + k)).
    rewrite (stream_is t m (density_at t x) (D - x + k) o v x q (flight_material x q H)
      (flight_density t x q Hx H) (af_position _ _ _ _ _ H) (af_direction _ _ _ _ _ H)).
    cbn [bind]. replace (x + (D - x + k)) with (D + k) by ring.
    change (p_position (set_position (set_indirect q (effects m (density_at t x) (D - x + k) q))
      (pt (along o v (D + k))))) with (pt (along o v (D + k))).
    rewrite Ec. cbn [bind]. eexists. split; [reflexivity|]. cbn. destruct (c_material c'); auto.
  Qed.

  (** A real collision is not virtual, and crosses nothing. *)
  Lemma flight_collide t x q s : 0 <= x < D -> after p o v x q ->
    match collide (A := XRa) fuel t (Fin s) q with
    | Ok q' => match p_event q' with virtual_collision | surface_cross | leak => False | _ => True end
    | _ => True
    end.
  Proof.
    intros Hx H. unfold collide.
    rewrite (stream_is t m (density_at t x) s o v x q (flight_material x q H)
      (flight_density t x q Hx H) (af_position _ _ _ _ _ H) (af_direction _ _ _ _ _ H)).
    cbn [bind].
    set (q1 := set_position _ _).
    destruct (sample_nuclide q1) as [[nu q2]| | | |] eqn:Es; cbn [bind]; auto.
    destruct (nu_interact fuel nu q2) as [q3| | | |] eqn:Ei; auto.
    apply sample_nuclide_ok in Es as (Dr & c' & m' & a & Ec & Em & Hin).
    change (p_cell q1) with (p_cell q) in Ec.
    rewrite (af_cell _ _ _ _ _ H), (fl_cell _ _ _ _ _ _ _ _ _ _ F) in Ec. injection Ec as <-.
    rewrite (fl_material _ _ _ _ _ _ _ _ _ _ F) in Em. injection Em as <-.
    apply nu_interact_place in Ei as [_ [E|[E|[E|[_ [mg E]]]]]]; try (rewrite E; exact I).
    exfalso.
    destruct (fl_data _ _ _ _ _ _ _ _ _ _ F (nu, a) q2 Hin) as [co Eco].
    { rewrite Dr. cbn. apply (af_type _ _ _ _ _ H). }
    cbn [fst] in Eco. rewrite E in Eco. discriminate.
  Qed.

  (** The particle after a virtual collision. *)
  Definition onward x s (q : particle XRa Given) : particle XRa Given :=
    set_event (set_position (set_indirect q (effects m M s q)) (pt (along o v (x + s))))
      virtual_collision.

  Lemma onward_after x s q : after p o v x q -> after p o v (x + s) (onward x s q).
  Proof. intros [? ? ? ? ?]. constructor; auto. Qed.

  Lemma delta_cross k x q u l : 0 <= x < D -> after p o v x q -> 0 < u < 1 ->
    D - x < - ln (1 - u) / (d * M) ->
    passes CellDeltaTracking fuel w (S k) (set_rng q (u :: l)) = true.
  Proof.
    intros Hx H Hu Hd. cbn [passes transport_step]. unfold delta_step.
    destruct (fl_positive _ _ _ _ _ _ _ _ _ _ F) as [PM _].
    rewrite (flight_distance CellDeltaTracking x q u l Hx H Hu PM). cbn [bind density_at].
    pose proof (flight_rng x q l H) as H'.
    rewrite (flight_cell x _ H'). cbn [bind].
    rewrite (af_position _ _ _ _ _ H'), (af_direction _ _ _ _ _ H').
    destruct (fl_ahead _ _ _ _ _ _ _ _ _ _ F x Hx) as [s Es].
    change (num XRa) with xr in *. rewrite Es. cbn [bind].
    change (nltb XRa (Fin (D - x)) (Fin (- ln (1 - u) / (d * M))))
      with (Rltb (D - x) (- ln (1 - u) / (d * M))).
    rewrite Rltb_true by auto.
    destruct (flight_cross CellDeltaTracking x (set_rng q l) s Hx H') as (q' & E & [V|V]);
      rewrite E, V; reflexivity.
  Qed.

  Lemma delta_collide k x q u y l : 0 <= x < D -> after p o v x q -> 0 < u < 1 -> 0 < y < 1 ->
    - ln (1 - u) / (d * M) < D - x ->
    passes CellDeltaTracking fuel w (S k) (set_rng q (u :: y :: l))
    = (if Rltb y (sigma x / M) then false
       else passes CellDeltaTracking fuel w k
              (set_rng (onward x (- ln (1 - u) / (d * M)) q) l)).
  Proof.
    intros Hx H Hu Hy Hd. cbn [passes transport_step]. unfold delta_step.
    destruct (fl_positive _ _ _ _ _ _ _ _ _ _ F) as [PM _].
    rewrite (flight_distance CellDeltaTracking x q u (y :: l) Hx H Hu PM). cbn [bind density_at].
    pose proof (flight_rng x q (y :: l) H) as H'.
    rewrite (flight_cell x _ H'). cbn [bind].
    rewrite (af_position _ _ _ _ _ H'), (af_direction _ _ _ _ _ H').
    destruct (fl_ahead _ _ _ _ _ _ _ _ _ _ F x Hx) as [s Es].
    change (num XRa) with xr in *. rewrite Es. cbn [bind].
    change (nltb XRa (Fin (D - x)) (Fin (- ln (1 - u) / (d * M))))
      with (Rltb (D - x) (- ln (1 - u) / (d * M))).
    rewrite Rltb_false by lra.
    rewrite (flight_material x _ H'). cbn [bind].
    destruct (fl_total _ _ _ _ _ _ _ _ _ _ F x _ Hx H') as [T1 T2].
    change (num XRa) with xr in *. rewrite T1, T2. cbn [bind].
    assert (Dv : ndiv XRa (Fin (sigma x)) (Fin M) = Fin (sigma x / M)).
    { cbn. rewrite Reqb_false by lra. reflexivity. }
    rewrite Dv.
    change (bernoulli Given (Fin (sigma x / M)) (p_rng (set_rng q (y :: l))))
      with (Rltb (inside y) (sigma x / M), l).
    rewrite (inside_is y Hy).
    cbv iota beta.
    change (set_rng (set_rng q (y :: l)) l) with (set_rng q l).
    pose proof (flight_rng x q l H) as H2.
    destruct (Rltb y (sigma x / M)).
    - pose proof (flight_collide CellDeltaTracking x _ (- ln (1 - u) / (d * M)) Hx H2) as C.
      destruct (collide _ _ _ _) as [q'| | | |]; auto. destruct (p_event q'); tauto.
    - rewrite (stream_is CellDeltaTracking m M (- ln (1 - u) / (d * M)) o v x (set_rng q l)
        (flight_material x _ H2) (flight_density CellDeltaTracking x _ Hx H2)
        (af_position _ _ _ _ _ H2) (af_direction _ _ _ _ _ H2)).
      reflexivity.
  Qed.

  Lemma surface_passes x q u l k : 0 <= x < D -> after p o v x q -> 0 < u < 1 ->
    0 < sigma x -> - ln (1 - u) / (d * sigma x) <> D - x ->
    passes SurfaceTracking fuel w (S k) (set_rng q (u :: l))
    = Rltb (D - x) (- ln (1 - u) / (d * sigma x)).
  Proof.
    intros Hx H Hu PS Hd. cbn [passes transport_step]. unfold surface_step.
    rewrite (flight_distance SurfaceTracking x q u l Hx H Hu PS). cbn [bind density_at].
    pose proof (flight_rng x q l H) as H'.
    rewrite (flight_cell x _ H'). cbn [bind].
    rewrite (af_position _ _ _ _ _ H'), (af_direction _ _ _ _ _ H').
    destruct (fl_ahead _ _ _ _ _ _ _ _ _ _ F x Hx) as [s Es].
    change (num XRa) with xr in *. rewrite Es. cbn [bind].
    change (nltb XRa (Fin (- ln (1 - u) / (d * sigma x))) (Fin (D - x)))
      with (Rltb (- ln (1 - u) / (d * sigma x)) (D - x)).
    destruct (Rlt_le_dec (- ln (1 - u) / (d * sigma x)) (D - x)) as [L|L].
    - rewrite Rltb_true, Rltb_false by lra.
      pose proof (flight_collide SurfaceTracking x _ (- ln (1 - u) / (d * sigma x)) Hx H') as C.
      destruct (collide _ _ _ _) as [q'| | | |]; auto. destruct (p_event q'); tauto.
    - rewrite Rltb_false, Rltb_true by lra.
      destruct (flight_cross SurfaceTracking x (set_rng q l) s Hx H') as (q' & E & [V|V]);
        rewrite E, V; reflexivity.
  Qed.

  (** A draw and the distance it stands for. *)
  Lemma draw_before mu r u : 0 < mu -> u < 1 ->
    (u < 1 - exp (- (mu * r)) <-> - ln (1 - u) / mu < r).
  Proof.
    intros Hm Hu. split; intros H.
    - apply Rmult_lt_reg_r with mu; [auto|]. unfold Rdiv. rewrite Rmult_assoc, Rinv_l by lra.
      assert (exp (- (mu * r)) < exp (ln (1 - u))) by (rewrite exp_ln; lra).
      apply exp_lt_inv in H0. lra.
    - assert (- ln (1 - u) < r * mu).
      { replace (- ln (1 - u)) with (- ln (1 - u) / mu * mu) by (field; lra).
        now apply Rmult_lt_compat_r. }
      assert (exp (- (mu * r)) < exp (ln (1 - u))) by (apply exp_increasing; lra).
      rewrite exp_ln in H1; lra.
  Qed.
  Lemma draw_after mu r u : 0 < mu -> u < 1 ->
    (1 - exp (- (mu * r)) < u <-> r < - ln (1 - u) / mu).
  Proof.
    intros Hm Hu. split; intros H.
    - apply Rmult_lt_reg_r with mu; [auto|]. unfold Rdiv. rewrite Rmult_assoc, Rinv_l by lra.
      assert (exp (ln (1 - u)) < exp (- (mu * r))) by (rewrite exp_ln; lra).
      apply exp_lt_inv in H0. lra.
    - assert (r * mu < - ln (1 - u)).
      { replace (- ln (1 - u)) with (- ln (1 - u) / mu * mu) by (field; lra).
        now apply Rmult_lt_compat_r. }
      assert (exp (ln (1 - u)) < exp (- (mu * r))) by (apply exp_increasing; lra).
      rewrite exp_ln in H1; lra.
  Qed.

  Lemma exp_small mu r : 0 < mu -> 0 <= r -> 0 < exp (- (mu * r)) <= 1.
  Proof.
    intros Hm Hr. split; [apply exp_pos|]. rewrite <- exp_0.
    destruct (Req_dec r 0) as [->|]; [right; f_equal; ring|].
    left. apply exp_increasing. assert (0 < r) by lra. nra.
  Qed.

  Lemma delta_chance k x q h I : 0 <= x < D -> after p o v x q ->
    (forall u, 0 < u < 1 -> - ln (1 - u) / (d * M) < D - x ->
       chance (S (2 * k))
         (fun l => passes CellDeltaTracking fuel w (S k) (set_rng q (u :: l))) (h u)) ->
    integral h 0 (1 - exp (- (d * M * (D - x)))) I ->
    chance (2 * S k) (fun l => passes CellDeltaTracking fuel w (S k) (set_rng q l))
      (I + exp (- (d * M * (D - x)))).
  Proof.
    intros Hx H Hh HI.
    destruct (fl_positive _ _ _ _ _ _ _ _ _ _ F) as [PM _].
    destruct (fl_density _ _ _ _ _ _ _ _ _ _ F) as [_ Pd].
    assert (Pm : 0 < d * M) by nra.
    pose proof (exp_small (d * M) (D - x) Pm ltac:(lra)) as B.
    set (us := 1 - exp (- (d * M * (D - x)))) in *.
    replace (2 * S k)%nat with (S (S (2 * k))) by lia.
    exists (fun u => if Rltb u us then h u else 1), [us]. split.
    - intros u Hu N. assert (Nu : u <> us) by (intros ->; apply N; now left).
      destruct (Rlt_le_dec u us) as [L|L].
      + rewrite Rltb_true by auto. apply Hh; auto. apply draw_before; auto; lra.
      + rewrite Rltb_false by auto.
        apply (chance_ext _ (fun _ => true)); [|exact (chance_const _ true)].
        intros l. symmetry. apply (delta_cross k x); auto.
        apply draw_after; auto; [lra|]. fold us. lra.
    - apply (integral_chasles _ 0 us 1).
      + revert HI. apply integral_ext; [unfold us; lra|]. intros u Hu. now rewrite Rltb_true by lra.
      + apply (integral_ext (fun _ => 1)); [unfold us; lra| |].
        * intros u Hu. now rewrite Rltb_false by lra.
        * apply integral_is. unfold us. ring.
  Qed.

  Lemma delta_law S : (forall x, 0 <= x < D -> sigma x = S) ->
    forall k x q, 0 <= x < D -> after p o v x q ->
      chance (2 * k) (fun l => passes CellDeltaTracking fuel w k (set_rng q l))
        (exp (- (d * M * (D - x))) * Ex k ((d * M - d * S) * (D - x))).
  Proof.
    intros HS. induction k as [|k IH]; intros x q Hx H.
    - cbn. ring.
    - destruct (fl_positive _ _ _ _ _ _ _ _ _ _ F) as [PM _].
      destruct (fl_density _ _ _ _ _ _ _ _ _ _ F) as [_ Pd].
      assert (Pm : 0 < d * M) by nra.
      set (r := D - x).
      replace (exp (- (d * M * r)) * Ex (Datatypes.S k) ((d * M - d * S) * r))
        with (exp (- (d * M * r)) * (Ex (Datatypes.S k) ((d * M - d * S) * r) - 1)
              + exp (- (d * M * r))) by ring.
      eapply delta_chance; [auto|auto| |apply step_integral; [auto|unfold r; lra]].
      intros u Hu Hd. cbn beta.
      pose proof (fl_majorant _ _ _ _ _ _ _ _ _ _ F x Hx) as B.
      rewrite (HS x Hx) in B.
      assert (B' : 0 <= S / M <= 1).
      { split; [apply Rdiv_le_0_compat; lra|]. apply Rmult_le_reg_r with M; [auto|].
        unfold Rdiv. rewrite Rmult_assoc, Rinv_l by lra. lra. }
      set (Q := exp (- (d * M * (r + ln (1 - u) / (d * M)))) *
                Ex k ((d * M - d * S) * (r + ln (1 - u) / (d * M)))).
      exists (fun y => if Rltb y (S / M) then 0 else Q), []. split.
      + intros y Hy _.
        apply (chance_ext _ (fun l => if Rltb y (S / M) then false
          else passes CellDeltaTracking fuel w k
                 (set_rng (onward x (- ln (1 - u) / (d * M)) q) l))).
        { intros l. rewrite (delta_collide k x q u y l Hx H Hu Hy Hd), (HS x Hx). reflexivity. }
        destruct (Rltb y (S / M)); [exact (chance_const _ false)|].
        assert (N : 0 <= - ln (1 - u) / (d * M)).
        { apply Rdiv_le_0_compat; auto. assert (ln (1 - u) < ln 1) by (apply ln_increasing; lra).
          rewrite ln_1 in H0. lra. }
        pose proof (IH (x + - ln (1 - u) / (d * M)) (onward x (- ln (1 - u) / (d * M)) q)
          ltac:(lra) (onward_after x _ q H)) as C.
        replace (D - (x + - ln (1 - u) / (d * M))) with (r + ln (1 - u) / (d * M)) in C
          by (unfold r; field; lra).
        exact C.
      + replace ((1 - d * S / (d * M)) * Q) with (0 + (1 - S / M) * Q)
          by (field; lra).
        apply (integral_chasles _ 0 (S / M) 1).
        * apply (integral_ext (fun _ => 0)); [lra| |apply integral_is; ring].
          intros y Hy. now rewrite Rltb_true by lra.
        * apply (integral_ext (fun _ => Q)); [lra| |apply integral_is; ring].
          intros y Hy. now rewrite Rltb_false by lra.
  Qed.

  (** Where the cross section is the majorant every collision is real. *)
  Lemma majorant_law k : sigma 0 = M ->
    chance (2 * S k) (fun l => passes CellDeltaTracking fuel w (S k) (set_rng p l))
      (exp (- (d * M * D))).
  Proof.
    intros HS. destruct (fl_positive _ _ _ _ _ _ _ _ _ _ F) as [PM PD].
    pose proof (fl_start _ _ _ _ _ _ _ _ _ _ F) as H.
    replace (exp (- (d * M * D))) with (0 + exp (- (d * M * (D - 0))))
      by (rewrite Rminus_0_r; ring).
    apply (delta_chance k 0 p (fun _ => 0)); [lra|auto| |apply integral_is; ring].
    intros u Hu Hd. exists (fun _ => 0), []. split; [|apply integral_is; ring].
    intros y Hy _. apply (chance_ext _ (fun _ => false)); [|exact (chance_const _ false)].
    intros l. rewrite (delta_collide k 0 p u y l) by (auto; lra).
    rewrite HS, Rltb_true; [reflexivity|]. unfold Rdiv. rewrite Rinv_r; lra.
  Qed.
End Flight.

Lemma C98_delta_partial_proof :
  forall (fuel : nat) (w : world XRa) (p : particle XRa Given) (o v : vec) (c : cell XRa)
    (m : material XRa) (D d M S : R) (sigma : R -> R),
    flight w p o v c m D d M sigma -> (forall x, 0 <= x < D -> sigma x = S) ->
    exists P : nat -> R,
      (forall k, chance (2 * k) (fun l => passes CellDeltaTracking fuel w k (set_rng p l)) (P k))
      /\ is_lim_seq P (exp (- (d * S * D))).
Proof.
  intros fuel w p o v c m D d M S sigma F HS.
  exists (fun k => exp (- (d * M * D)) * Ex k ((d * M - d * S) * D)). split.
  - intros k. pose proof (delta_law fuel w p o v c m D d M sigma F S HS k 0 p) as L. rewrite Rminus_0_r in L. apply L.
    + destruct (fl_positive _ _ _ _ _ _ _ _ _ _ F). lra.
    + exact (fl_start _ _ _ _ _ _ _ _ _ _ F).
  - replace (exp (- (d * S * D)))
      with (exp (- (d * M * D)) * exp ((d * M - d * S) * D))
      by (rewrite <- exp_plus; f_equal; ring).
    apply (is_lim_seq_scal_l (fun k => Ex k ((d * M - d * S) * D)) (exp (- (d * M * D)))
             (exp ((d * M - d * S) * D))).
    apply Ex_limit.
Qed.

Lemma C98_surface_partial_proof :
  forall (fuel : nat) (w : world XRa) (p : particle XRa Given) (o v : vec) (c : cell XRa)
    (m : material XRa) (D d M S : R) (sigma : R -> R),
    flight w p o v c m D d M sigma -> sigma 0 = S -> 0 < S ->
    chance 1 (fun l => passes SurfaceTracking fuel w 1 (set_rng p l)) (exp (- (d * S * D))).
Proof.
  intros fuel w p o v c m D d M S sigma F HS PS.
  destruct (fl_positive _ _ _ _ _ _ _ _ _ _ F) as [PM PD].
  destruct (fl_density _ _ _ _ _ _ _ _ _ _ F) as [_ Pd].
  assert (Pm : 0 < d * S) by nra.
  pose proof (exp_small (d * S) D Pm ltac:(lra)) as B.
  set (us := 1 - exp (- (d * S * D))).
  exists (fun u => if Rltb u us then 0 else 1), [us]. split.
  - intros u Hu N. assert (Nu : u <> us) by (intros ->; apply N; now left).
    cbn [chance].
    pose proof (draw_before (d * S) D u Pm ltac:(lra)) as Db.
    pose proof (draw_after (d * S) D u Pm ltac:(lra)) as Da.
    fold us in Db, Da.
    rewrite (surface_passes fuel w p o v c m D d M sigma F 0 p u [] 0);
      [|lra|exact (fl_start _ _ _ _ _ _ _ _ _ _ F)|auto|now rewrite HS|].
    + rewrite Rminus_0_r, HS. destruct (Rlt_le_dec u us) as [L|L].
      * rewrite (Rltb_true u us) by auto. rewrite Rltb_false; [auto|]. apply Db in L. lra.
      * rewrite (Rltb_false u us) by auto. rewrite Rltb_true; [auto|]. apply Da. lra.
    + rewrite Rminus_0_r, HS. intros E. destruct (Rtotal_order u us) as [L|[L|L]]; [|auto|].
      * apply Db in L. lra.
      * apply Da in L. lra.
  - replace (exp (- (d * S * D))) with (0 + exp (- (d * S * D))) by ring.
    apply (integral_chasles _ 0 us 1).
    + apply (integral_ext (fun _ => 0)); [unfold us; lra| |apply integral_is; ring].
      intros u Hu. now rewrite Rltb_true by lra.
    + apply (integral_ext (fun _ => 1)); [unfold us; lra| |apply integral_is; unfold us; ring].
      intros u Hu. now rewrite Rltb_false by lra.
Qed.

(** ** A slab that is warmer on one side *)

Definition left_wall : surf XRa := mkSurf 0 (mkSurface "left" (PlaneX (Fin 0 : num XRa))).
Definition right_wall : surf XRa := mkSurf 1 (mkSurface "right" (PlaneX (Fin 100 : num XRa))).
Definition warming : field XRa :=
  LinearField (A := XRa) (Fin 600) (Fin 300) (pt (V3 3 0 0)) (Fin 300).
Definition slab_cell : cell XRa :=
  mkCell 0 "slab" [(left_wall, false); (right_wall, true)] (Some warm_material) warming.
Definition left_cell : cell XRa := mkCell 1 "left" [(left_wall, true)] None warming.
Definition right_cell : cell XRa := mkCell 2 "right" [(right_wall, false)] None warming.
Definition slab_world : world XRa :=
  mkWorld [left_wall; right_wall] [warmer] [warm_material] warming [slab_cell; left_cell; right_cell].
Definition slab_at (x : R) : particle XRa Given :=
  new_particle (G := Given) (pt (V3 x 0 0)) (pt (V3 (-1) 0 0))
    (ContinuousE (A := XRa) (Fin 1)) neutron 1 (Some slab_cell).
(** Below 303 degrees, where x is less than 1, the total is 1, and otherwise 2. *)
Definition slab_sigma (x t : R) : R := if Rltb (x - t) 1 then 1 else 2.

Lemma warming_at x : field_at warming (pt (V3 x 0 0)) = Fin (3 * x + 300).
Proof.
  unfold field_at, warming. rewrite pdot_pt. unfold dot. cbn [vx vy vz].
  change (Fin (3 * x + 0 * 0 + 0 * 0 + 300) = Fin (3 * x + 300)). f_equal. ring.
Qed.

Lemma slab_total (q : particle XRa Given) x :
  0 <= x -> p_position q = pt (V3 x 0 0) -> p_cell q = Some slab_cell -> p_type q = neutron ->
  p_energy q = ContinuousE (A := XRa) (Fin 1) ->
  mat_total warm_material q = Ok (Fin (if Rltb x 1 then 1 else 2))
  /\ mat_majorant warm_material q = Ok (Fin 2).
Proof.
  intros Hx Ex Ec Et Ee.
  assert (X1 : forall ev y, ev_xs ev = table1 y -> ev_xs_at ev q = Ok (Fin y)).
  { intros ev y E. unfold ev_xs_at. rewrite Ee. cbn [get_continuous bind]. rewrite E, table1_at.
    reflexivity. }
  set (co := mkContinuous (A := XRa) [CCapture (mkEval (A := XRa) (table1 2) (Fin 600))]
       (mkEval (A := XRa) (table1 1) (Fin 300))).
  assert (Sum : forall f : creaction XRa -> particle XRa Given -> outcome xr,
    f (CCapture (mkEval (A := XRa) (table1 2) (Fin 600))) q = Ok (Fin 2) ->
    sum_reactions (A := XRa) (fun r => f r q) (co_reactions co) = Ok (Fin 2)).
  { intros f Ef. unfold sum_reactions, co. cbn [co_reactions foldM]. rewrite Ef. cbn.
    do 2 f_equal. lra. }
  assert (At : nu_at warmer q = Ok (IContinuous co)) by (unfold nu_at; rewrite Et; reflexivity).
  assert (One : forall f v, f warmer = Ok (Fin v) ->
    sum_afracs (A := XRa) f (m_afracs warm_material) = Ok (Fin v)).
  { intros f v Ef. unfold sum_afracs. cbn [m_afracs warm_material foldM fst snd].
    rewrite Ef. cbn. do 2 f_equal. lra. }
  assert (Gc : get_cell q = Ok slab_cell) by (unfold get_cell; rewrite Ec; reflexivity).
  split.
  - unfold mat_total. apply <- @noexcept_ok. apply One. unfold nu_total. apply <- @noexcept_ok.
    rewrite At. cbn [bind]. unfold co_get_total. apply <- @noexcept_ok. rewrite Gc. cbn [bind].
    cbn [c_temperature slab_cell]. rewrite Ex, warming_at. unfold co_at_temperature.
    cbn [any_modifies co co_reactions cr_modifies_total bind negb andb co_total].
    rewrite (ev_is_valid_real (mkEval (A := XRa) (table1 1) (Fin 300)) (3 * x + 300) 300 eq_refl) by lra.
    replace (300 * (101 / 100)) with 303 by lra.
    replace (Rltb (3 * x + 300) 303) with (Rltb x 1).
    2:{ destruct (Rlt_le_dec x 1); [rewrite !Rltb_true by lra|rewrite !Rltb_false by lra];
        reflexivity. }
    destruct (Rltb x 1).
    + now apply X1.
    + apply Sum. now apply X1.
  - unfold mat_majorant. apply <- @noexcept_ok. apply One. unfold nu_majorant.
    apply <- @noexcept_ok. rewrite At. cbn [bind]. unfold co_get_majorant. apply <- @noexcept_ok.
    rewrite Gc. cbn [bind]. cbn [c_temperature slab_cell field_upper warming].
    unfold co_at_temperature.
    cbn [any_modifies co co_reactions cr_modifies_total bind negb andb co_total].
    rewrite (ev_is_valid_real (mkEval (A := XRa) (table1 1) (Fin 300)) 600 300 eq_refl) by lra.
    rewrite Rltb_false by lra. apply Sum. now apply X1.
Qed.

Lemma slab_along x t : along (V3 x 0 0) (V3 (-1) 0 0) t = V3 (x - t) 0 0.
Proof. unfold along, vadd, vscale; cbn; f_equal; ring. Qed.

Lemma slab_flight x : 0 < x < 100 ->
  flight slab_world (slab_at x) (V3 x 0 0) (V3 (-1) 0 0) slab_cell warm_material x 1 2
    (slab_sigma x).
Proof.
  intros Hx. constructor.
  - constructor; try reflexivity. now rewrite slab_along, Rminus_0_r.
  - reflexivity.
  - reflexivity.
  - split; [reflexivity|lra].
  - intros t Ht. rewrite slab_along. exists left_wall.
    unfold nearest_surface. cbn [c_senses slab_cell].
    unfold min_surface, su_distance. cbn. decide_reals. cbn. decide_reals. cbn.
    do 3 f_equal. field.
  - destruct nudge_fin as (k & Ek & Hk). exists k, left_cell. split; auto.
    rewrite slab_along. unfold find_cell. cbn. decide_reals. reflexivity.
  - intros t q Ht [Ap Ad Ae At Ac]. rewrite slab_along in Ap.
    exact (slab_total q (x - t) ltac:(lra) Ap Ac At Ae).
  - intros t Ht. unfold slab_sigma. destruct (Rltb _ _); lra.
  - lra.
  - intros y q [<-|[]] Et. eexists. unfold nu_at. cbn in Et. rewrite Et. reflexivity.
Qed.

Lemma C98_example :
  flight slab_world (slab_at (/ 2)) (V3 (/ 2) 0 0) (V3 (-1) 0 0) slab_cell warm_material
    (/ 2) 1 2 (slab_sigma (/ 2))
  /\ forall t, 0 <= t < / 2 -> slab_sigma (/ 2) t = 1.
Proof.
  split; [apply slab_flight; lra|]. intros t Ht. unfold slab_sigma. rewrite Rltb_true; lra.
Qed.

Lemma C98_varying_refuted_proof :
  exists (w : world XRa) (p : particle XRa Given) (o v : vec) (c : cell XRa) (m : material XRa)
    (D d M I P : R) (sigma : R -> R),
    flight w p o v c m D d M sigma
    /\ is_RInt (V := R_NormedModule) sigma 0 D I
    /\ (forall fuel k, (0 < k)%nat ->
          chance (2 * k) (fun l => passes CellDeltaTracking fuel w k (set_rng p l)) P)
    /\ P <> exp (- (d * I)).
Proof.
  exists slab_world, (slab_at 2), (V3 2 0 0), (V3 (-1) 0 0), slab_cell, warm_material, 2, 1, 2, 3,
    (exp (- (1 * 2 * 2))), (slab_sigma 2).
  pose proof (slab_flight 2 ltac:(lra)) as F.
  split; [exact F|split; [|split]].
  - replace 3 with (2 + 1) by ring. apply (integral_chasles _ 0 1 2).
    + apply (integral_ext (fun _ => 2)); [lra| |apply integral_is; ring].
      intros u Hu. unfold slab_sigma. now rewrite Rltb_false by lra.
    + apply (integral_ext (fun _ => 1)); [lra| |apply integral_is; ring].
      intros u Hu. unfold slab_sigma. now rewrite Rltb_true by lra.
  - intros fuel [|k] Hk; [lia|].
    apply (majorant_law fuel _ _ _ _ _ _ _ _ _ _ F). unfold slab_sigma. now rewrite Rltb_false by lra.
  - intros E. apply exp_inv in E. lra.
Qed.
