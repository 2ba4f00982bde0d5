(** An isotropic source in the middle of an absorbing ball: property C108. *)
From Coq Require Import Bool String List Reals ZArith NArith Lra Lia.
From Coquelicot Require Import Coquelicot.
From Verif Require Import Model.Num Model.Outcome Model.Rng Model.Xml Model.Std Model.Point
  Model.Surface Model.Types Model.Field Model.Particle Model.Multigroup
  Model.Material Model.World Model.Perturbation Model.Transport Model.Driver
  Spec.Vec Spec.GeometrySpec Spec.DirectionSpec Spec.RngSpec
  Spec.MultigroupSpec Spec.MaterialSpec Spec.TransportSpec Spec.ChanceSpec
  Spec.CollisionSpec Spec.StepSpec Spec.AbsorbSpec Spec.LayerSpec Spec.BallSpec
  Proofs.OutcomeLib Proofs.RealLib Proofs.RngProofs Proofs.GeometryProofs Proofs.DirectionProofs
  Proofs.CrossingProofs Proofs.ChanceLib Proofs.FlightLaw Proofs.CollisionLaw Proofs.BirthLaw Proofs.StepLaw Proofs.AbsorbLaw Proofs.LayerLaw Proofs.SampleProblem.
Import ListNotations.
Local Open Scope R_scope.

(** From the middle the surface is as far as the radius. *)
Lemma middle_distance a r v : 0 < r -> unit v ->
  distance (Sphere (A := XRa) (pt a) (Fin r)) (pt a) (pt v) = Fin r.
Proof.
  intros Hr U. rewrite sphere_distance by exact U.
  assert (Z : forall y, dot (vsub a a) y = 0).
  { intros y. destruct a, y. unfold dot, vsub. cbn. ring. }
  rewrite !Z. destruct (SolveQuadratic_spec 1 (2 * 0) (0 - r * r) ltac:(lra)) as (S1 & S2 & _).
  destruct S2 as [d Ed].
  { exists r. unfold quad. split; [lra|]. split; [ring|lra]. }
  rewrite Ed. destruct (S1 d Ed) as (Pd & Q & _). unfold quad in Q. f_equal. nra.
Qed.

Lemma away_distance a v y : unit v -> 0 <= y -> dist (along a v y) a = y.
Proof.
  intros U Hy. unfold dist, norm. apply unit_dot in U.
  replace (dot (vsub (along a v y) a) (vsub (along a v y) a)) with (y * y * dot v v).
  - rewrite U, Rmult_1_r. now apply sqrt_square.
  - destruct a, v. unfold along, vsub, vadd, vscale, dot. cbn. ring.
Qed.

Lemma C108_ball_proof :
  forall (X : Ext XRa) (Gs : list N) (doc : nuclide XRa -> node) (m : material XRa) (w : world XRa) (c : cell XRa)
    (g : N) (a : vec) (d r : R) (t : tracking) (fuel more : nat)
    (E : Type) (score : E -> particle XRa Given -> outcome E) (e : E),
  mixture X Gs doc m -> absorbs X doc m g -> In g Gs ->
  c_material c = Some m -> m_density m = Fin d -> ball w c a r ->
  (forall e' q, exists e'', score e' q = Ok e'') ->
  chance (3 + more)
    (fun l => comes_to (last_state (transport (A := XRa) score t (1 + fuel) w e (isotropic_neutron a g l)))
                (fun q => event_eqb (p_event q) leak))
    (exp (- (d * mixed_sum doc m (fun n => sigma X n Rcapture g) * r))).
Proof.
  intros X Gs doc m w c g a d r t fuel more E score e M Ab Hg Em Hd B Sc.
  apply (chance_any (2 + more)). intros u Hu. apply (chance_any (1 + more)). intros y Hy.
  destruct (dir_isotropic_pt Given [u; y] (open_valid _ given_open)) as (v & Ev & U).
  assert (Ei : forall l, isotropic_neutron a g (u :: y :: l)
                         = set_rng (new_particle (G := Given) (pt a) (pt v) (Group g) neutron 1 None) l).
  { intros l. unfold isotropic_neutron. cbn [sample_direction]. rewrite <- Ev. reflexivity. }
  destruct nudge_fin as (k & Ek & Hk). pose proof (bl_radius _ _ _ _ B) as Hr.
  destruct (bl_outside _ _ _ _ B (along a v (r + k))) as (c' & Fc & Nc).
  { rewrite away_distance; auto; lra. }
  destruct (bl_cell _ _ _ _ B) as (s & Cs & Sh).
  eapply chance_ext.
  2: { eapply (C107_layers_proof X Gs doc w g a v c 1 _
         (new_particle (G := Given) (pt a) (pt v) (Group g) neutron 1 None) t fuel more E score e).
       - constructor.
         + reflexivity.
         + exists g. split; [reflexivity|exact Hg].
         + exists a. reflexivity.
         + exists v. split; [reflexivity|exact U].
       - reflexivity.
       - reflexivity.
       - reflexivity.
       - reflexivity.
       - exact (bl_inside _ _ _ _ B).
       - apply last_layer with (o' := along a v (r + k)) (c' := c'); [|exact Nc].
         exists m, d, r, k. do 6 (split; [assumption|]). split.
         + exists s. unfold nearest_surface. rewrite Cs. cbn [min_surface]. unfold su_distance.
           rewrite Sh, middle_distance; auto.
         + split; [exact Ek|]. split; [reflexivity|]. split; [exact Fc|reflexivity].
       - exact Sc. }
  intros l. cbv beta. now rewrite Ei.
Qed.

(** The problem of test/point_source_leakage.xml. *)
Definition sphere : surf XRa := mkSurf 0 (mkSurface "sphere" (Sphere (A := XRa) (pt (V3 0 0 0)) (Fin 1))).
Definition ball_cell : cell XRa := mkCell 0 "sphere" [(sphere, true)] (Some slab_material) warmth.
Definition ball_outside : cell XRa := mkCell 1 "" [(sphere, false)] None warmth.
Definition ball_world : world XRa :=
  mkWorld [sphere] [slab_nuclide] [slab_material] warmth [ball_cell; ball_outside].

Lemma C108_example :
  mixture slab_ext [1]%N (fun _ => slab_node) slab_material /\ absorbs slab_ext (fun _ => slab_node) slab_material 1
  /\ In 1%N [1]%N /\ c_material ball_cell = Some slab_material /\ m_density slab_material = Fin 1
  /\ ball ball_world ball_cell (V3 0 0 0) 1
  /\ c_senses ball_cell = [(sphere, true)]
  /\ 1 * mixed_sum (fun _ => slab_node) slab_material (fun n => sigma slab_ext n Rcapture 1) * 1 = 1.
Proof.
  destruct C106_example as (Mx & Ab & _ & _ & _ & _ & _ & _ & _ & _ & S1).
  split; [exact Mx|]. split; [exact Ab|]. split; [now left|]. do 2 (split; [reflexivity|]).
  split; [|split; [reflexivity|rewrite S1; ring]].
  assert (In_ : forall x, su_contains sphere (pt x) = Rltb (dot (vsub x (V3 0 0 0)) (vsub x (V3 0 0 0))) (1 * 1)).
  { intros x. apply (sphere_contains (V3 0 0 0) 1). }
  constructor.
  - lra.
  - exists sphere. split; reflexivity.
  - unfold find_cell. cbn [w_cells ball_world find]. unfold cell_contains. cbn [c_senses ball_cell forallb fst snd].
    rewrite In_. unfold dot, vsub. cbn [vx vy vz]. decide_reals. reflexivity.
  - intros x Hx. exists ball_outside. split; [|reflexivity].
    assert (1 < dot (vsub x (V3 0 0 0)) (vsub x (V3 0 0 0))).
    { unfold dist, norm in Hx. set (z := dot _ _) in *. assert (0 <= z) by apply dot_nonneg.
      rewrite <- (sqrt_sqrt z) by auto. nra. }
    unfold find_cell. cbn [w_cells ball_world find]. unfold cell_contains. cbn [c_senses ball_cell ball_outside forallb fst snd].
    rewrite In_, Rltb_false by lra. reflexivity.
Qed.

(** What the estimators of a history see of it: the particle after each step. *)
Section Tally.
  Context (X : Ext XRa) (Gs : list N) (doc : nuclide XRa -> node) (m : material XRa) (w : world XRa) (c c' : cell XRa)
    (g : N) (o v : vec) (d D k : R) (s : surf XRa) (t : tracking) (fuel : nat) (p : particle XRa Given).
  Hypotheses (M : mixture X Gs doc m) (Ab : absorbs X doc m g) (N0 : group_neutron Gs p) (Eg : p_energy p = Group g)
    (Al : is_alive p = true) (Ec : p_cell p = Some c)
    (Em : c_material c = Some m) (Hd : m_density m = Fin d) (Eo : p_position p = pt o) (Ev : p_direction p = pt v)
    (Es : nearest_surface c (pt o) (pt v) = Ok (s, Fin D))
    (Ek : nudge (A := XRa) = Fin k) (Fc : find_cell w (pt (along o v (D + k))) = Ok c') (Nc : c_material c' = None).
  Let T := mixed_sum doc m (any_reaction X g).

  Lemma one_seen u l : 0 < u < 1 -> u <> 1 - exp (- (d * T * D)) ->
    exists q, transport_loop (A := XRa) (fun tr q => Ok (tr ++ [q])%list) t (S fuel) w [] (set_rng p (u :: l)) = Ok ([q], q)
      /\ (if Rlt_dec u (1 - exp (- (d * T * D))) then p_event q = capture
          else p_event q = leak /\ p_surface q = Some (su_id s)).
  Proof.
    intros Hu Ne. pose proof (mu_pos X Gs doc m p g d M N0 Eg Hd) as Pm.
    assert (Q : exists q, transport_step (A := XRa) t fuel w (set_rng p (u :: l)) = Ok q /\ is_alive q = false
      /\ (if Rlt_dec u (1 - exp (- (d * T * D))) then p_event q = capture
          else p_event q = leak /\ p_surface q = Some (su_id s))).
    { destruct (Rlt_dec u (1 - exp (- (d * T * D)))) as [L|L].
      - apply (draw_before _ D u Pm ltac:(lra)) in L.
        destruct (step_before X Gs doc m c w p g o v D d t fuel s M N0 Eg Ec Em Hd Eo Ev Es u l Hu L) as [l' St].
        destruct (absorbed X Gs doc m c p g t fuel M N0 Eg Ec Em Ab (- ln (1 - u) / (d * T)) l') as (q & Eq & Qe).
        exists q. split; [exact (eq_trans St Eq)|]. split; [unfold is_alive; now rewrite Qe|exact Qe].
      - assert (L' : D < - ln (1 - u) / (d * T)) by (apply (draw_after _ D u Pm ltac:(lra)); unfold T in Ne, L; lra).
        eexists. split; [exact (step_beyond X Gs doc m c c' w p g o v D d k t fuel s M N0 Eg Ec Em Hd Eo Ev Es Ek Fc u l Hu L')|].
        unfold is_alive, beyond. cbn. rewrite Nc. auto. }
    destruct Q as (q & Eq & Dead & R). exists q. split; [|exact R].
    cbn [transport_loop]. change (is_alive (set_rng p (u :: l))) with (is_alive p). rewrite Al.
    change (num XRa) with xr in *. rewrite Eq. cbn [bind app].
    destruct fuel; cbn [transport_loop]; rewrite Dead; reflexivity.
  Qed.
End Tally.

Lemma C108_tally_proof :
  forall (X : Ext XRa) (Gs : list N) (doc : nuclide XRa -> node) (m : material XRa) (w : world XRa) (c : cell XRa)
    (g : N) (a : vec) (d r : R) (s : surf XRa) (t : tracking) (fuel more : nat),
  mixture X Gs doc m -> absorbs X doc m g -> In g Gs ->
  c_material c = Some m -> m_density m = Fin d -> ball w c a r -> c_senses c = [(s, true)] ->
  let leaked := exp (- (d * mixed_sum doc m (fun n => sigma X n Rcapture g) * r)) in
  chance (3 + more) (fun l => tallied t (1 + fuel) w (su_id s) 1 (isotropic_neutron a g l)) leaked
  /\ chance (3 + more) (fun l => tallied t (1 + fuel) w (su_id s) 0 (isotropic_neutron a g l)) (1 - leaked).
Proof.
  intros X Gs doc m w c g a d r s t fuel more M Ab Hg Em Hd B Cs leaked.
  assert (H : forall b, chance (3 + more)
    (fun l => tallied t (1 + fuel) w (su_id s) (if b : bool then 1 else 0) (isotropic_neutron a g l))
    (if b then leaked else 1 - leaked)); [|split; [exact (H true)|exact (H false)]].
  intros b. apply (chance_any (2 + more)). intros u Hu. apply (chance_any (1 + more)). intros y Hy.
  destruct (dir_isotropic_pt Given [u; y] (open_valid _ given_open)) as (v & Ev & U).
  set (p0 := new_particle (G := Given) (pt a) (pt v) (Group g) neutron 1 None).
  assert (Ei : forall l, isotropic_neutron a g (u :: y :: l) = set_rng p0 l).
  { intros l. unfold isotropic_neutron. cbn [sample_direction]. unfold p0. rewrite <- Ev. reflexivity. }
  destruct nudge_fin as (k & Ek & Hk). pose proof (bl_radius _ _ _ _ B) as Hr.
  destruct (bl_outside _ _ _ _ B (along a v (r + k))) as (c' & Fc & Nc).
  { rewrite away_distance; auto; lra. }
  assert (Es : nearest_surface c (pt a) (pt v) = Ok (s, Fin r)).
  { destruct (bl_cell _ _ _ _ B) as (s' & Cs' & Sh). rewrite Cs in Cs'. injection Cs' as <-.
    unfold nearest_surface. rewrite Cs. cbn [min_surface]. unfold su_distance. rewrite Sh, middle_distance; auto. }
  set (p := set_cell p0 c).
  assert (N0 : group_neutron Gs p).
  { constructor.
    - reflexivity.
    - exists g. split; [reflexivity|exact Hg].
    - exists a. reflexivity.
    - exists v. split; [reflexivity|exact U]. }
  assert (All : mixed_sum doc m (fun n => sigma X n Rcapture g) = mixed_sum doc m (any_reaction X g)).
  { apply mixed_ext. intros nu a' Hin. destruct (Ab nu a' Hin) as [A1 A2]. unfold any_reaction. rewrite A1, A2. ring. }
  unfold leaked. rewrite All.
  pose proof (mu_pos X Gs doc m p g d M N0 eq_refl Hd) as Pm.
  set (x := exp (- (d * mixed_sum doc m (any_reaction X g) * r))).
  assert (Bx : 0 < x <= 1) by (apply (exp_small _ r Pm); lra).
  exists (fun z => if Rlt_dec z (1 - x) then (if b then 0 else 1) else (if b then 1 else 0)), [1 - x]. split.
  - intros z Hz Nz. assert (Ne : z <> 1 - x) by (intros ->; apply Nz; now left).
    assert (Tr : forall l, tallied t (1 + fuel) w (su_id s) (if b then 1 else 0) (isotropic_neutron a g (u :: y :: z :: l))
      = if Rlt_dec z (1 - x) then negb b else b).
    { intros l. rewrite Ei. unfold tallied, transport. cbn [p_position set_rng p0 new_particle].
      change (num XRa) with xr in *. rewrite (bl_inside _ _ _ _ B). cbn [bind].
      change (set_cell (set_rng p0 (z :: l)) c) with (set_rng p (z :: l)). change (1 + fuel)%nat with (S fuel).
      destruct (one_seen X Gs doc m w c c' g a v d r k s t fuel p M Ab N0 eq_refl eq_refl eq_refl Em Hd eq_refl eq_refl
        Es Ek Fc Nc z l Hz Ne) as (q & Eq & R).
      change (num XRa) with xr in *. rewrite Eq. cbn [noexcept filter length]. fold x in R.
      unfold EstimatorSpec.crossed. destruct (Rlt_dec z (1 - x)).
      - rewrite R. now destruct b, (p_surface q).
      - destruct R as [R1 R2]. rewrite R1, R2, Nat.eqb_refl. now destruct b. }
    destruct (Rlt_dec z (1 - x)); destruct b; cbn [negb] in Tr;
      first [now apply (chance_sure more _ true)|now apply (chance_sure more _ false)].
  - replace (if b then x else 1 - x)
      with ((1 - x) * (if b then 0 else 1) + (1 - (1 - x)) * (if b then 1 else 0)) by (destruct b; ring).
    apply integral_chasles with (1 - x).
    + apply (integral_ext (fun _ => if b then 0 else 1)); [lra| |apply integral_is; destruct b; ring].
      intros z Hz. destruct (Rlt_dec z (1 - x)); [reflexivity|lra].
    + apply (integral_ext (fun _ => if b then 1 else 0)); [lra| |apply integral_is; destruct b; ring].
      intros z Hz. destruct (Rlt_dec z (1 - x)); [lra|reflexivity].
Qed.
