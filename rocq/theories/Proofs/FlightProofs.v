(** Lengths of flights: C74, and crossings as steps of transport: C49. *)
From Coq Require Import Bool String List Reals ZArith NArith Lra Lia.
From Verif Require Import Model.Num Model.Outcome Model.Rng Model.Xml Model.Std Model.Point
  Model.Surface Model.Types Model.Field Model.Particle Model.Multigroup Model.Thermal
  Model.Continuous Model.Material Model.World Model.Perturbation Model.Estimator Model.Transport
  Spec.Vec Spec.GeometrySpec Spec.CellSpec Spec.RngSpec Spec.TransportSpec
  Proofs.OutcomeLib Proofs.RealLib Proofs.RngProofs Proofs.GeometryProofs Proofs.CellProofs
  Proofs.StreamProofs Proofs.StepLib Proofs.MaterialProofs Proofs.TransportProofs Proofs.WellPosed
  Proofs.CrossingProofs.
Import ListNotations.
Local Open Scope R_scope.

Lemma collision_density_rate {A : Arith} {G : Rng A} t (p : particle A G) c m x :
  in_material p c m -> collision_density t p = Ok x ->
  (match t with SurfaceTracking => mat_total m p | CellDeltaTracking => mat_majorant m p end) = Ok x.
Proof.
  intros [Ec Em] H. unfold collision_density in H. apply -> @noexcept_ok in H.
  unfold get_material, get_cell in H. rewrite Ec in H. cbn in H. rewrite Em in H. cbn in H.
  exact H.
Qed.

Lemma step_flight {A : Arith} {G : Rng A} t fuel w (p q : particle A G) c m s ds rate :
  transport_step t fuel w p = Ok q -> in_material p c m -> flight_rate t m p rate ->
  nearest_surface c (p_position p) (p_direction p) = Ok (s, ds) ->
  let u := fst (runif G (p_rng p)) in
  let d := ndiv A (nopp A (nlog A (nsub A (nofZ A 1) u))) rate in
  let reaches := match t with
                 | SurfaceTracking => negb (nltb A d ds)
                 | CellDeltaTracking => nltb A ds d
                 end in
  if reaches
  then p_position q = padd (p_position p) (pscale (p_direction p) (nadd A ds nudge))
       /\ p_surface q = Some (su_id s) /\ same_flight p q
       /\ (exists c', first_cell w (p_position q) c' /\ p_cell q = Some c'
           /\ p_event q = match c_material c' with Some _ => surface_cross | None => leak end)
  else p_position q = padd (p_position p) (pscale (p_direction p) d)
       /\ p_surface q = p_surface p /\ p_cell q = Some c.
Proof.
  intros H M (x & Rx & ->) Hn. cbv zeta.
  assert (Hd : forall d p1, sample_distance t p = Ok (d, p1) ->
    d = ndiv A (nopp A (nlog A (nsub A (nofZ A 1) (fst (runif G (p_rng p))))))
          (nmul A (m_density m) x) /\ drew p p1).
  { intros d p1 E. pose proof E as E'. apply sample_distance_ok in E' as [D _]. split; auto.
    unfold sample_distance in E. apply bind_ok in E as (m' & Em' & E).
    assert (m' = m).
    { unfold get_material, get_cell in Em'. rewrite (proj1 M) in Em'. cbn in Em'.
      rewrite (proj2 M) in Em'. now injection Em'. }
    subst m'. apply bind_ok in E as (x' & Ex & E). apply (collision_density_rate t p c m) in Ex; auto.
    rewrite Rx in Ex. injection Ex as <-. unfold exponential in E.
    destruct (runif G (p_rng p)) as [u s']. injection E as <- _. reflexivity. }
  assert (Hc : forall d p1 q, drew p p1 -> cross_surface t w s d p1 = Ok q ->
     p_position q = padd (p_position p) (pscale (p_direction p) (nadd A d nudge))
       /\ p_surface q = Some (su_id s) /\ same_flight p q
       /\ (exists c', first_cell w (p_position q) c' /\ p_cell q = Some c'
           /\ p_event q = match c_material c' with Some _ => surface_cross | None => leak end)).
  { clear. intros d p1 q D H. unfold cross_surface in H. oinv H. apply stream_ok in E.
    apply find_cell_first in E0. subst q. cbn. split; [rewrite E, D; reflexivity|].
    split; [reflexivity|]. split; [rewrite E, D; repeat split|]. exists x0. auto. }
  assert (Hk : forall d p1 q, drew p p1 -> collide fuel t d p1 = Ok q ->
     p_position q = padd (p_position p) (pscale (p_direction p) d)
       /\ p_surface q = p_surface p /\ p_cell q = Some c).
  { clear - M. intros d p1 q D H. unfold collide in H. oinv H. apply stream_ok in E.
    destruct x0 as [nu p2]. apply sample_nuclide_ok in E0 as (D2 & _).
    apply nu_interact_place in H as [[P1 P2 P3 P4 _] _].
    rewrite P1, P2, P4, D2. cbn. rewrite E, D. cbn. repeat split. apply M. }
  destruct t; cbn [transport_step] in H.
  - unfold surface_step in H. apply bind_ok in H as ([d p1] & E & H).
    apply Hd in E as [-> D]. apply bind_ok in H as (c' & Ec & H). rewrite D in Ec. unfold get_cell in Ec. cbn in Ec.
    rewrite (proj1 M) in Ec. injection Ec as <-.
    apply bind_ok in H as ([s' ds'] & En & H). rewrite D in En. cbn in En.
    rewrite Hn in En. injection En as <- <-.
    destruct (nltb A _ _); cbn [negb]; eauto.
  - unfold delta_step in H. apply bind_ok in H as ([d p1] & E & H).
    apply Hd in E as [-> D]. apply bind_ok in H as (c' & Ec & H). rewrite D in Ec. unfold get_cell in Ec. cbn in Ec.
    rewrite (proj1 M) in Ec. injection Ec as <-.
    apply bind_ok in H as ([s' ds'] & En & H). rewrite D in En. cbn in En.
    rewrite Hn in En. injection En as <- <-.
    destruct (nltb A ds _); eauto. oinv H. destruct (bernoulli G _ _) as [[|] s''].
    + apply (Hk _ (set_rng p1 s'')) in H; auto. eapply drew_trans; [exact D|]. reflexivity.
    + apply bind_ok in H as (p3 & E3 & H). injection H as <-. apply stream_ok in E3. cbn. rewrite E3, D. cbn. repeat split. apply M.
Qed.

Lemma C74_flight_proof :
  forall (A : Arith) (G : Rng A) t fuel (w : world A) (p q : particle A G) c m s ds rate,
  transport_step t fuel w p = Ok q -> in_material p c m -> flight_rate t m p rate ->
  nearest_surface c (p_position p) (p_direction p) = Ok (s, ds) ->
  (* the first random number of the step fixes the length of the flight *)
  let u := draw G 0 (p_rng p) in
  let d := ndiv A (nopp A (nlog A (nsub A (nofZ A 1) u))) rate in
  (* the two methods differ if both distances are the same, or not comparable *)
  let reaches := match t with
                 | SurfaceTracking => negb (nltb A d ds)
                 | CellDeltaTracking => nltb A ds d
                 end in
  if reaches
  then p_position q = padd (p_position p) (pscale (p_direction p) (nadd A ds nudge))
       /\ p_surface q = Some (su_id s) /\ same_flight p q
       /\ (exists c', first_cell w (p_position q) c' /\ p_cell q = Some c'
           /\ p_event q = match c_material c' with Some _ => surface_cross | None => leak end)
  else p_position q = padd (p_position p) (pscale (p_direction p) d)
       /\ p_surface q = p_surface p /\ p_cell q = Some c.
Proof. intros. eapply step_flight; eauto. Qed.

Lemma flight_exceeds S u y : 0 < S -> 0 <= u < 1 ->
  (y < - ln (1 - u) / S <-> 1 - exp (- (S * y)) < u).
Proof.
  intros HS Hu.
  assert (E : y < - ln (1 - u) / S <-> ln (1 - u) < - (S * y)).
  { assert (X : (- ln (1 - u) / S) * S = - ln (1 - u)) by (field; lra).
    set (z := - ln (1 - u) / S) in *. split; intros; nra. }
  rewrite E. rewrite <- (ln_exp (- (S * y))) at 1.
  pose proof (exp_pos (- (S * y))). split; intros H1.
  - apply ln_lt_inv in H1; lra.
  - apply ln_increasing; lra.
Qed.

Lemma C74_exponential_proof :
  forall (G : Rng XRa) t fuel (w : world XRa) (p q : particle XRa G) c m s ds (rate : R) (o v : vec),
  valid_rng G -> transport_step t fuel w p = Ok q -> in_material p c m ->
  flight_rate t m p (Fin rate : num XRa) -> 0 < rate ->
  p_position p = pt o -> p_direction p = pt v ->
  nearest_surface c (p_position p) (p_direction p) = Ok (s, ds) ->
  exists u x, draw G 0 (p_rng p) = Fin u /\ 0 <= u < 1
    (* the length is longer than y for a part exp(-rate*y) of the random numbers *)
    /\ 0 <= x /\ (forall y, y < x <-> 1 - exp (- (rate * y)) < u)
    (* if it ends before the surface that is where the particle goes *)
    /\ (nltb XRa (Fin x) ds = true -> p_position q = pt (along o v x)
          /\ p_surface q = p_surface p /\ p_cell q = Some c)
    (* and otherwise the particle crosses the surface *)
    /\ (nltb XRa ds (Fin x) = true -> p_surface q = Some (su_id s)
          /\ (p_event q = surface_cross \/ p_event q = leak)).
Proof.
  intros G t fuel w p q c m s ds rate o v V H M Hr HS Eo Ev Hn.
  destruct (V (p_rng p)) as (u & Eu & Hu). exists u, (- ln (1 - u) / rate).
  pose proof (step_flight _ _ _ _ _ _ _ _ _ _ H M Hr Hn) as K. cbv zeta in K.
  rewrite Eu in K.
  assert (Ed : ndiv XRa (nopp XRa (nlog XRa (nsub XRa (nofZ XRa 1) (Fin u)))) (Fin rate : num XRa)
    = Fin (- ln (1 - u) / rate)).
  { cbn. unfold xsub. cbn. rewrite Rltb_true by lra. cbn. rewrite Reqb_false by lra. reflexivity. }
  rewrite Ed in K. split; [exact Eu|]. split; [exact Hu|]. split.
  { assert (ln (1 - u) <= ln 1).
    { destruct (Req_dec u 0) as [->|]; [rewrite Rminus_0_r; lra|]. left. apply ln_increasing; lra. }
    rewrite ln_1 in H0. apply Rmult_le_pos; [lra|]. left. apply Rinv_0_lt_compat. lra. }
  split. { intros y. now apply flight_exceeds. }
  set (x := - ln (1 - u) / rate) in *.
  split; intros L.
  - assert (K' : p_position q = padd (p_position p) (pscale (p_direction p) (Fin x : num XRa))
       /\ p_surface q = p_surface p /\ p_cell q = Some c).
    { destruct t; cbn [negb] in K.
      - rewrite L in K. exact K.
      - replace (nltb XRa ds (Fin x)) with false in K; [exact K|].
        symmetry. destruct ds as [r| | |]; cbn in L |- *; auto; try discriminate.
        destruct (Rltb_spec x r); [|discriminate]. apply Rltb_false. lra. }
    destruct K' as (K1 & K2). split; auto. rewrite K1, Eo, Ev, pscale_pt, padd_pt. f_equal.
  - assert (K' : p_surface q = Some (su_id s)
       /\ (exists c' : cell XRa, p_event q = match c_material c' with Some _ => surface_cross | None => leak end)).
    { destruct t; cbn [negb] in K.
      - replace (nltb XRa (Fin x) ds) with false in K.
        + destruct K as (_ & K1 & _ & c' & _ & _ & K2). eauto.
        + symmetry. destruct ds as [r| | |]; cbn in L |- *; auto; try discriminate.
          destruct (Rltb_spec r x); [|discriminate]. apply Rltb_false. lra.
      - rewrite L in K. destruct K as (_ & K1 & _ & c' & _ & _ & K2). eauto. }
    destruct K' as (K1 & c' & K2). split; auto. rewrite K2. destruct (c_material c'); auto.
Qed.

Lemma C74_transparent_proof :
  forall (G : Rng XRa) t fuel (w : world XRa) (p q : particle XRa G) c m s (d : R),
  open_rng G -> transport_step t fuel w p = Ok q -> in_material p c m ->
  flight_rate t m p (Fin 0 : num XRa) ->
  nearest_surface c (p_position p) (p_direction p) = Ok (s, Fin d) ->
  (* a particle that cannot collide crosses the nearest surface *)
  p_surface q = Some (su_id s) /\ (p_event q = surface_cross \/ p_event q = leak).
Proof.
  intros G t fuel w p q c m s d V H M Hr Hn.
  destruct (V (p_rng p)) as (u & Eu & Hu).
  pose proof (step_flight _ _ _ _ _ _ _ _ _ _ H M Hr Hn) as K. cbv zeta in K.
  rewrite Eu in K.
  assert (Ed : ndiv XRa (nopp XRa (nlog XRa (nsub XRa (nofZ XRa 1) (Fin u)))) (Fin 0 : num XRa)
    = PInf).
  { assert (ln (1 - u) < ln 1) by (apply ln_increasing; lra). rewrite ln_1 in H0.
    cbn. unfold xsub. cbn. rewrite Rltb_true by lra. cbn. rewrite (Reqb_true 0 0) by reflexivity.
    unfold xsinf. change (1 + - u) with (1 - u). decide_reals. reflexivity. }
  rewrite Ed in K.
  assert (K' : p_surface q = Some (su_id s)
       /\ (exists c' : cell XRa, p_event q = match c_material c' with Some _ => surface_cross | None => leak end)).
  { destruct t; cbn in K; destruct K as (_ & K1 & _ & c' & _ & _ & K2); eauto. }
  destruct K' as (K1 & c' & K2). split; auto. rewrite K2. destruct (c_material c'); auto.
Qed.

Lemma C49_step_proof :
  forall (G : Rng XRa) t fuel (w : world XRa) (p q : particle XRa G) c m s (d n rate : R) (o u : vec),
  valid_rng G -> transport_step t fuel w p = Ok q -> in_material p c m ->
  flight_rate t m p (Fin rate : num XRa) -> 0 < rate ->
  p_position p = pt o -> p_direction p = pt u -> unit u ->
  nudge (A := XRa) = Fin n ->
  nearest_surface c (p_position p) (p_direction p) = Ok (s, Fin d) ->
  (* the length drawn for the flight is beyond the surface *)
  (forall v, draw G 0 (p_rng p) = Fin v -> 1 - exp (- (rate * d)) < v) ->
  let shape := s_shape (su_surface s) in
  let after := along o u (d + n) in
  p_position q = pt after
  (* a plane is always left behind *)
  /\ (forall x, shape = PlaneX (A := XRa) (Fin x) ->
      vx o < x /\ x < vx after \/ x < vx o /\ vx after < x)
  (* so is a sphere when it is left *)
  /\ (forall x r, shape = Sphere (A := XRa) (pt x) (Fin r) -> 0 < r -> dist o x <= r ->
      r < dist after x)
  (* and when it is entered and not left again within the nudge *)
  /\ (forall x r e, shape = Sphere (A := XRa) (pt x) (Fin r) -> 0 < r -> r < dist o x ->
      d + n < e -> on_sphere x r (along o u e) -> dist after x < r).
Proof.
  intros G t fuel w p q c m s d n rate o u V H M Hr HS Eo Eu Hu En Hn Hv shape after.
  destruct (V (p_rng p)) as (v & Ev & Hv1). specialize (Hv v Ev).
  apply flight_exceeds in Hv; auto.
  pose proof (step_flight _ _ _ _ _ _ _ _ _ _ H M Hr Hn) as K. cbv zeta in K.
  rewrite Ev in K.
  assert (Ed : ndiv XRa (nopp XRa (nlog XRa (nsub XRa (nofZ XRa 1) (Fin v)))) (Fin rate : num XRa)
    = Fin (- ln (1 - v) / rate)).
  { cbn. unfold xsub. cbn. rewrite Rltb_true by lra. cbn. rewrite Reqb_false by lra. reflexivity. }
  rewrite Ed in K.
  assert (K' : p_position q = padd (p_position p) (pscale (p_direction p) (nadd XRa (Fin d) nudge))).
  { destruct t; cbn [negb] in K.
    - change (nltb XRa _ (Fin d)) with (Rltb (- ln (1 - v) / rate) d) in K.
      rewrite Rltb_false in K by lra. apply K.
    - change (nltb XRa (Fin d) _) with (Rltb d (- ln (1 - v) / rate)) in K.
      rewrite Rltb_true in K by lra. apply K. }
  assert (Dd : distance shape (p_position p) (p_direction p) = Fin d).
  { unfold nearest_surface in Hn. destruct (c_senses c) as [|[s0 b] l]; [discriminate|].
    now injection Hn as <- Hn. }
  rewrite Eo, Eu in Dd. destruct nudge_fin as (k & Ek & Hk). rewrite En in Ek. injection Ek as <-.
  split. { rewrite K', Eo, Eu, En. cbn [nadd XRa xadd]. rewrite pscale_pt, padd_pt. f_equal. }
  split; [|split].
  - intros x Es. rewrite Es in Dd. now apply (C49_plane_crossed_proof x o u d n En).
  - intros x r Es R0 Hi. rewrite Es in Dd. now apply (C49_sphere_crossed_proof x r o u d n R0 Hu En).
  - intros x r e Es R0 Ho He On. rewrite Es in Dd.
    apply (proj2 (C49_sphere_crossed_proof x r o u d n R0 Hu En Dd) e); auto. lra.
Qed.
