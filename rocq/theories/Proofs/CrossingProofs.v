(** Delta tracking, crossings and sources in void: properties C47-C49 and C67. *)
From Coq Require Import Bool String List Reals ZArith NArith Lra Lia Floats.SpecFloat.
From Verif Require Import Model.Num Model.Outcome Model.Rng Model.Xml Model.Std Model.Point
  Model.Surface Model.Types Model.Field Model.Tables Model.Particle Model.Multigroup Model.Thermal
  Model.Continuous Model.Material Model.World Model.Perturbation Model.Estimator Model.Transport
  Spec.Vec Spec.GeometrySpec Spec.CellSpec Spec.RngSpec Spec.TablesSpec Spec.TransportSpec
  Proofs.OutcomeLib Proofs.RealLib Proofs.RngProofs Proofs.GeometryProofs Proofs.CellProofs
  Proofs.StreamProofs Proofs.StepLib Proofs.TransportProofs Proofs.BinsProofs
  Proofs.ContinuousProofs Proofs.WellPosed.
Import ListNotations.
Local Open Scope R_scope.

(** ** C47 *)

Section Moved.
  Context {A : Arith} {G : Rng A}.
  Implicit Types p q : particle A G.

  (** [q] differs from [p] in nothing cross sections depend on. *)
  Record same_here p q : Prop := mkSameHere {
    sh_cell : p_cell q = p_cell p;
    sh_type : p_type q = p_type p;
    sh_energy : p_energy q = p_energy p;
    sh_temperature : forall c, p_cell p = Some c ->
      field_at (c_temperature c) (p_position q) = field_at (c_temperature c) (p_position p)
  }.

  Lemma foldM_cong {X Y} (f g : Y -> X -> outcome Y) l s :
    (forall x y, f x y = g x y) -> foldM f l s = foldM g l s.
  Proof. intros. now apply foldM_ext. Qed.

  Lemma same_valid t p q : same_here p q -> th_is_valid t q = th_is_valid t p.
  Proof. intros [C T E _]. unfold th_is_valid. rewrite T, E. reflexivity. Qed.
  Lemma same_applies tsl p q : same_here p q -> tsl_applies tsl q = tsl_applies tsl p.
  Proof. intros H. destruct tsl; cbn; auto. now apply same_valid. Qed.
  Lemma same_modifies r p q : same_here p q -> cr_modifies_total r q = cr_modifies_total r p.
  Proof. intros H. destruct r; cbn; auto. now apply same_applies. Qed.
  Lemma same_any rs p q : same_here p q -> any_modifies rs q = any_modifies rs p.
  Proof.
    intros H. induction rs as [|r rs IH]; cbn; auto. rewrite (same_modifies r p q H), IH. reflexivity.
  Qed.
  Lemma same_xs_at ev p q : same_here p q -> ev_xs_at ev q = ev_xs_at ev p.
  Proof. intros [_ _ E _]. unfold ev_xs_at. now rewrite E. Qed.
  Lemma same_scatter_xs ev awr p q T : same_here p q -> scatter_xs_at ev awr q T = scatter_xs_at ev awr p T.
  Proof.
    intros H. unfold scatter_xs_at, free_gas_valid, free_gas_adjustment.
    rewrite (same_xs_at ev p q H). destruct H as [_ Ty E _]. rewrite Ty, E. reflexivity.
  Qed.
  Lemma same_get_total t p q : same_here p q -> th_get_total t q = th_get_total t p.
  Proof.
    intros [C T E F]. unfold th_get_total, get_cell. rewrite C, E.
    destruct (p_cell p) as [c|] eqn:Ec; cbn [of_option bind].
    - rewrite (F c eq_refl). reflexivity.
    - reflexivity.
  Qed.
  Lemma same_cr_xs r p q : same_here p q -> cr_xs r q = cr_xs r p.
  Proof.
    intros H. destruct r as [ev|ev tsl awr|ev nb]; cbn [cr_xs];
      try (now apply same_xs_at). f_equal. rewrite (same_applies tsl p q H).
    destruct (tsl_applies tsl p) as [b| | | |]; auto. cbn [bind].
    assert (K : (let! c := get_cell q in
                 scatter_xs_at ev awr q (field_at (c_temperature c) (p_position q)))%outcome
      = (let! c := get_cell p in
         scatter_xs_at ev awr p (field_at (c_temperature c) (p_position p)))%outcome).
    { unfold get_cell. rewrite (sh_cell _ _ H). destruct (p_cell p) as [c|] eqn:Ec; auto.
      cbn [of_option bind]. rewrite (sh_temperature _ _ H c Ec). now apply same_scatter_xs. }
    destruct b, tsl; auto. now apply same_get_total.
  Qed.
  Lemma same_cr_majorant r p q : same_here p q -> cr_majorant r q = cr_majorant r p.
  Proof.
    intros H. destruct r as [ev|ev tsl awr|ev nb]; cbn [cr_majorant];
      try (now apply same_xs_at). f_equal. rewrite (same_applies tsl p q H).
    destruct (tsl_applies tsl p) as [b| | | |]; auto. cbn [bind].
    assert (K : (let! c := get_cell q in scatter_xs_at ev awr q (field_upper (c_temperature c)))%outcome
      = (let! c := get_cell p in scatter_xs_at ev awr p (field_upper (c_temperature c)))%outcome).
    { unfold get_cell. rewrite (sh_cell _ _ H). destruct (p_cell p) as [c|] eqn:Ec; auto.
      cbn [of_option bind]. now apply same_scatter_xs. }
    destruct b, tsl; auto. unfold th_get_majorant. now rewrite (sh_energy _ _ H).
  Qed.
  Lemma same_co co p q T (f : creaction A -> particle A G -> outcome (num A)) : same_here p q ->
    (forall r, f r q = f r p) -> co_at_temperature co q T f = co_at_temperature co p T f.
  Proof.
    intros H Hf. unfold co_at_temperature. rewrite (same_any _ p q H), (same_xs_at _ p q H).
    destruct (any_modifies (co_reactions co) p) as [b| | | |]; auto. cbn [bind].
    destruct (negb b && ev_is_valid (co_total co) T)%bool; auto. unfold sum_reactions.
    apply foldM_cong. intros x r. now rewrite Hf.
  Qed.
  Lemma same_nu_total nu p q : same_here p q -> nu_total nu q = nu_total nu p.
  Proof.
    intros H. unfold nu_total, nu_at. rewrite (sh_type _ _ H). f_equal.
    destruct (find _ _) as [[t [mg|co]]|]; auto; cbn [bind snd].
    - unfold mg_get_total. rewrite (sh_energy _ _ H). reflexivity.
    - unfold co_get_total, get_cell. rewrite (sh_cell _ _ H). f_equal.
      destruct (p_cell p) as [c|] eqn:Ec; auto. cbn [of_option bind].
      rewrite (sh_temperature _ _ H c Ec). apply same_co; auto. intros; now apply same_cr_xs.
  Qed.
  Lemma same_nu_majorant nu p q : same_here p q -> nu_majorant nu q = nu_majorant nu p.
  Proof.
    intros H. unfold nu_majorant, nu_at. rewrite (sh_type _ _ H). f_equal.
    destruct (find _ _) as [[t [mg|co]]|]; auto; cbn [bind snd].
    - unfold mg_get_majorant, mg_get_total. rewrite (sh_energy _ _ H). reflexivity.
    - unfold co_get_majorant, get_cell. rewrite (sh_cell _ _ H). f_equal.
      destruct (p_cell p) as [c|] eqn:Ec; auto. cbn [of_option bind].
      apply same_co; auto. intros; now apply same_cr_majorant.
  Qed.
  Lemma same_mat_total m p q : same_here p q -> mat_total m q = mat_total m p.
  Proof.
    intros H. unfold mat_total, sum_afracs. f_equal. apply foldM_cong. intros x [nu a]. cbn [fst].
    now rewrite (same_nu_total nu p q H).
  Qed.
  Lemma same_mat_majorant m p q : same_here p q -> mat_majorant m q = mat_majorant m p.
  Proof.
    intros H. unfold mat_majorant, sum_afracs. f_equal. apply foldM_cong. intros x [nu a]. cbn [fst].
    now rewrite (same_nu_majorant nu p q H).
  Qed.
End Moved.

Lemma C47_rejection_partial_proof :
  forall (A : Arith) (G : Rng A) fuel (w : world A) (p q : particle A G) c m M s ds,
  transport_step CellDeltaTracking fuel w p = Ok q ->
  in_material p c m ->
  (* the cell has one temperature *)
  (forall x y, field_at (c_temperature c) x = field_at (c_temperature c) y) ->
  (* the distance drawn with the majorant does not reach the next surface *)
  mat_majorant m p = Ok M ->
  nearest_surface c (p_position p) (p_direction p) = Ok (s, ds) ->
  let (d, s1) := exponential G (nmul A (m_density m) M) (p_rng p) in
  nltb A ds d = false ->
  (* total and majorant at the point of the tentative collision *)
  let site := set_position p (padd (p_position p) (pscale (p_direction p) d)) in
  exists T M', mat_total m site = Ok T /\ mat_majorant m site = Ok M'
  /\ let (v, s2) := runif G s1 in
     if nltb A v (ndiv A T M')
     then exists nu a effects r,
            In (nu, a) (m_afracs m)
            /\ nu_interact fuel nu (set_rng (set_indirect site effects) r) = Ok q
     else p_event q = virtual_collision /\ p_position q = p_position site
          /\ p_cell q = p_cell p /\ same_flight p q.
Proof.
  intros A G fuel w p q c m M s ds H [Ec Em] Hc EM En.
  cbn [transport_step] in H. unfold delta_step, sample_distance in H.
  assert (Gm : get_material p = Ok m).
  { unfold get_material, get_cell. rewrite Ec. cbn. rewrite Em. reflexivity. }
  rewrite Gm in H. cbn [bind] in H. unfold collision_density in H. rewrite Gm in H. cbn [bind] in H.
  rewrite EM in H. cbn [bind noexcept] in H.
  destruct (exponential G (nmul A (m_density m) M) (p_rng p)) as [d s1]. intros Lt site.
  cbn [bind] in H. set (p1 := set_rng p s1) in *.
  assert (Gc : get_cell p1 = Ok c) by (unfold get_cell; cbn; rewrite Ec; reflexivity).
  rewrite Gc in H. cbn [bind] in H.
  change (nearest_surface c (p_position p1) (p_direction p1))
    with (nearest_surface c (p_position p) (p_direction p)) in H.
  rewrite En in H. cbn [bind] in H. rewrite Lt in H.
  assert (Gm1 : get_material p1 = Ok m).
  { unfold get_material. rewrite Gc. cbn. rewrite Em. reflexivity. }
  rewrite Gm1 in H. cbn [bind] in H.
  assert (S1 : same_here p1 site).
  { constructor; auto. intros c0 E0. cbn in E0. rewrite Ec in E0. injection E0 as <-. apply Hc. }
  rewrite <- (same_mat_total m p1 site S1), <- (same_mat_majorant m p1 site S1) in H.
  apply bind_ok in H as (T & ET & H). apply bind_ok in H as (M' & EM' & H).
  exists T, M'. split; auto. split; auto. unfold bernoulli in H.
  change (p_rng p1) with s1 in H. destruct (runif G s1) as [v s2].
  destruct (nltb A v (ndiv A T M')).
  - unfold collide in H. apply bind_ok in H as (x & Ex & H).
    apply bind_ok in H as ([nu p4] & Es & H).
    unfold stream in Ex. apply -> @noexcept_ok in Ex. apply bind_ok in Ex as (eff & _ & Ex).
    apply Ok_inj in Ex. subst x.
    apply sample_nuclide_ok in Es as (Dr & c' & m' & a & Ec' & Em' & Hin).
    cbn in Ec'. rewrite Ec in Ec'. injection Ec' as <-. rewrite Em in Em'. injection Em' as <-.
    exists nu, a, eff, (p_rng p4). split; auto. rewrite Dr in H. exact H.
  - apply bind_ok in H as (x & Ex & H). apply Ok_inj in H. subst q.
    unfold stream in Ex. apply -> @noexcept_ok in Ex. apply bind_ok in Ex as (eff & _ & Ex).
    apply Ok_inj in Ex. subst x. cbn. repeat split; auto.
Qed.

(** A nuclide whose total was evaluated at 300 degrees and its capture at 600, in a cell
    whose temperature grows along x from 300 degrees at the origin. *)
Definition table1 (x : R) : cmap XRa 1 := table [(1 / 2, x)].
Definition warmer : nuclide XRa :=
  mkNuclide 0 "absorber" [(neutron, IContinuous (A := XRa)
    (mkContinuous (A := XRa) [CCapture (mkEval (A := XRa) (table1 2) (Fin 600))]
       (mkEval (A := XRa) (table1 1) (Fin 300))))].
Definition warm_material : material XRa :=
  mkMaterial (A := XRa) "absorber" [(warmer, Fin 1)] (Fin 1).
Definition wall : surf XRa := mkSurf 0 (mkSurface "wall" (PlaneX (Fin 1000 : num XRa))).
Definition rising : field XRa :=
  LinearField (A := XRa) (Fin 1000300) (Fin 0) (pt (V3 1000 0 0)) (Fin 300).
Definition heated : cell XRa := mkCell 0 "heated" [(wall, true)] (Some warm_material) rising.
Definition heated_world : world XRa := mkWorld [wall] [warmer] [warm_material] rising [heated].
Definition heated_at (x : R) : particle XRa half_rng :=
  new_particle (G := half_rng) (pt (V3 x 0 0)) (pt (V3 1 0 0))
    (ContinuousE (A := XRa) (Fin 1)) neutron 1 (Some heated).

Lemma rising_at x : field_at rising (pt (V3 x 0 0)) = Fin (1000 * x + 300).
Proof.
  unfold field_at, rising. rewrite pdot_pt. unfold dot. cbn [vx vy vz].
  change (Fin (1000 * x + 0 * 0 + 0 * 0 + 300) = Fin (1000 * x + 300)). f_equal. ring.
Qed.

Lemma table1_at x : cm1_at (table1 x) (Fin 1) = Ok (Fin x).
Proof. unfold cm1_at, table1. cbn. decide_reals. cbn. reflexivity. Qed.

Lemma heated_total (q : particle XRa half_rng) x :
  0 <= x -> p_position q = pt (V3 x 0 0) -> p_cell q = Some heated -> p_type q = neutron ->
  p_energy q = ContinuousE (A := XRa) (Fin 1) ->
  mat_total warm_material q = Ok (Fin (if Rltb (1000 * x + 300) 303 then 1 else 2))
  /\ mat_majorant warm_material q = Ok (Fin 2).
Proof.
  intros Hx Ex Ec Et Ee.
  assert (X1 : forall ev y, ev_xs ev = table1 y -> ev_xs_at ev q = Ok (Fin y)).
  { intros ev y E. unfold ev_xs_at. rewrite Ee. cbn [get_continuous bind]. rewrite E, table1_at.
    reflexivity. }
  set (co := mkContinuous (A := XRa) [CCapture (mkEval (A := XRa) (table1 2) (Fin 600))]
       (mkEval (A := XRa) (table1 1) (Fin 300))).
  assert (Sum : forall f : creaction XRa -> particle XRa half_rng -> outcome xr,
    f (CCapture (mkEval (A := XRa) (table1 2) (Fin 600))) q = Ok (Fin 2) ->
    sum_reactions (A := XRa) (fun r => f r q) (co_reactions co) = Ok (Fin 2)).
  { intros f Ef. unfold sum_reactions, co. cbn [co_reactions foldM]. rewrite Ef. cbn.
    do 2 f_equal. lra. }
  assert (At : nu_at warmer q = Ok (IContinuous co)) by (unfold nu_at; rewrite Et; reflexivity).
  assert (One : forall f v, f warmer = Ok (Fin v) ->
    sum_afracs (A := XRa) f (m_afracs warm_material) = Ok (Fin v)).
  { intros f v Ef. unfold sum_afracs. cbn [m_afracs warm_material foldM fst snd].
    rewrite Ef. cbn. do 2 f_equal. lra. }
  assert (Gc : get_cell q = Ok heated) by (unfold get_cell; rewrite Ec; reflexivity).
  split.
  - unfold mat_total. apply <- @noexcept_ok. apply One. unfold nu_total. apply <- @noexcept_ok.
    rewrite At. cbn [bind]. unfold co_get_total. apply <- @noexcept_ok. rewrite Gc. cbn [bind].
    cbn [c_temperature heated]. rewrite Ex, rising_at. unfold co_at_temperature.
    cbn [any_modifies co co_reactions cr_modifies_total bind negb andb co_total].
    rewrite (ev_is_valid_real (mkEval (A := XRa) (table1 1) (Fin 300)) (1000 * x + 300) 300 eq_refl) by lra.
    replace (300 * (101 / 100)) with 303 by lra. destruct (Rltb (1000 * x + 300) 303).
    + now apply X1.
    + apply Sum. now apply X1.
  - unfold mat_majorant. apply <- @noexcept_ok. apply One. unfold nu_majorant.
    apply <- @noexcept_ok. rewrite At. cbn [bind]. unfold co_get_majorant. apply <- @noexcept_ok.
    rewrite Gc. cbn [bind]. cbn [c_temperature heated field_upper rising].
    unfold co_at_temperature.
    cbn [any_modifies co co_reactions cr_modifies_total bind negb andb co_total].
    rewrite (ev_is_valid_real (mkEval (A := XRa) (table1 1) (Fin 300)) 1000300 300 eq_refl) by lra.
    rewrite Rltb_false by lra. apply Sum. now apply X1.
Qed.

Lemma C47_rejection_refuted_proof :
  exists (G : Rng XRa) (w : world XRa) (p q : particle XRa G) c m T M,
  valid_rng G /\ first_cell w (p_position p) c /\ in_material p c m
  /\ transport_step CellDeltaTracking 0 w p = Ok q /\ p_event q = virtual_collision
  (* although at the tentative collision point the probability to accept is one *)
  /\ mat_total m q = Ok (Fin T) /\ mat_majorant m q = Ok (Fin M) /\ 0 < M /\ T / M = 1.
Proof.
  exists half_rng, heated_world, (heated_at 0).
  assert (L2 : / 2 < ln 2 < 1).
  { split; [exact ln_lt_2|]. rewrite <- (ln_exp 1). apply ln_increasing; [lra|].
    pose proof (exp_ineq1 1 ltac:(lra)). lra. }
  set (d := ln 2 / 2).
  exists (set_event (heated_at d) virtual_collision), heated, warm_material, 2, 2.
  destruct (heated_total (heated_at 0) 0) as [E1 E2]; try reflexivity; try lra.
  rewrite Rltb_true in E1 by lra.
  destruct (heated_total (set_event (heated_at d) virtual_collision) d) as [E3 E4];
    try reflexivity; [unfold d; lra|]. rewrite Rltb_false in E3 by (unfold d; lra).
  split; [apply open_valid, half_open|]. split.
  { exists [], []. split; [reflexivity|]. split; [|intros ? []].
    intros s b [[= <- <-]|[]]. etransitivity; [apply (planex_contains 1000 (V3 0 0 0))|].
    apply Rltb_true. cbn. lra. }
  split; [split; reflexivity|]. split; [|repeat split; auto; lra].
  cbn [transport_step]. unfold delta_step, sample_distance.
  change (get_material (heated_at 0)) with (Ok warm_material). cbn [bind].
  unfold collision_density. change (get_material (heated_at 0)) with (Ok warm_material).
  cbn [bind]. change (num XRa) with xr in *. rewrite E2. cbn [bind noexcept].
  pose proof (exponential_fin half_rng (p_rng (heated_at 0)) (1 / 2) (1 * 2) eq_refl
    ltac:(lra) ltac:(lra)) as Ex.
  replace (- ln (1 - 1 / 2) / (1 * 2)) with d in Ex.
  2: { unfold d. replace (1 - 1 / 2) with (/ 2) by lra. rewrite ln_Rinv by lra. lra. }
  change (m_density warm_material) with (Fin 1 : num XRa).
  change (nmul XRa (Fin 1) (Fin 2)) with (Fin (1 * 2)). rewrite Ex. cbn [bind].
  change (set_rng (heated_at 0) (snd (runif half_rng (p_rng (heated_at 0)))))
    with (heated_at 0).
  change (get_cell (heated_at 0)) with (Ok heated). cbn [bind].
  assert (En : nearest_surface heated (p_position (heated_at 0)) (p_direction (heated_at 0))
               = Ok (wall, Fin 1000)).
  { unfold nearest_surface. cbn [c_senses heated min_surface]. do 2 f_equal.
    unfold su_distance. etransitivity; [apply (planex_distance 1000 (V3 0 0 0) (V3 1 0 0))|].
    cbn [vx]. decide_reals. f_equal. lra. }
  rewrite En. cbn [bind].
  replace (nltb XRa (Fin 1000) (Fin d)) with false
    by (symmetry; apply Rltb_false; unfold d; lra).
  change (get_material (heated_at 0)) with (Ok warm_material). cbn [bind]. rewrite E1, E2.
  cbn [bind]. unfold bernoulli. change (runif half_rng (p_rng (heated_at 0))) with (Fin (1 / 2), tt).
  cbn [bind]. match goal with |- context [if ?b then collide _ _ _ _ else _] => replace b with false end.
  2: { cbn. rewrite Reqb_false by lra. symmetry. apply Rltb_false. lra. }
  cbn [bind]. change (set_rng (heated_at 0) tt) with (heated_at 0).
  unfold stream. change (p_indirect (heated_at 0)) with (@nil (perturbation XRa * num XRa)).
  cbn [mapM bind noexcept].
  change (p_position (heated_at 0)) with (pt (V3 0 0 0)).
  change (p_direction (heated_at 0)) with (pt (V3 1 0 0)).
  replace (padd (pt (V3 0 0 0)) (pscale (pt (V3 1 0 0)) (Fin d))) with (pt (V3 d 0 0)).
  2: { rewrite pscale_pt, padd_pt. f_equal. unfold vadd, vscale. cbn. f_equal; ring. }
  reflexivity.
Qed.

(** ** C48 *)

Lemma create_cells_temperature {A : Arith} (X : Ext A) root ss ms f cells :
  create_cells X root ss ms f = Ok cells ->
  forall c, In c cells -> c_temperature c = f \/ exists t, c_temperature c = constant_field t.
Proof.
  unfold create_cells. intros H.
  refine (foldM_inv _ (fun acc => forall c, In c acc -> c_temperature c = f
            \/ exists t, c_temperature c = constant_field t) _ _ _ _ _ H); [|intros ? []].
  intros acc n acc' _ I E c Hc. oinv E. subst acc'.
  apply in_app_iff in Hc as [Hc|[<-|[]]]; auto.
  unfold cell_create in E0. apply -> @noexcept_ok in E0. oinv E0. subst x.
  cbn [c_temperature]. unfold assign_temperature.
  destruct (n_attr n "temperature"); eauto.
Qed.

Lemma field_constant (f : field XRa) : field_is_constant f = true ->
  forall x y : vec, field_at f (pt x) = field_at f (pt y).
Proof.
  destruct f as [u l c|u l g b]; auto. cbn [field_is_constant]. intros H x y.
  assert (Eg : g = pt (V3 0 0 0)).
  { destruct g as [gx gy gz]. unfold peqb in H. cbn in H.
    apply andb_prop in H as [H Hz]. apply andb_prop in H as [Hx Hy].
    destruct gx, gy, gz; try discriminate. cbn in *.
    repeat match goal with H : Reqb ?a ?b = true |- _ =>
      destruct (Reqb_spec a b); [subst; clear H|discriminate] end. reflexivity. }
  subst g. cbn [field_at]. rewrite !pdot_pt. unfold dot. cbn [vx vy vz].
  replace (0 * vx x + 0 * vy x + 0 * vz x) with 0 by ring.
  replace (0 * vx y + 0 * vy y + 0 * vz y) with 0 by ring. reflexivity.
Qed.

Lemma C48_constant_temperature_proof :
  forall (X : Ext XRa) (root : node) (w : world XRa),
  world_create X root = Ok w ->
  (* accepted: one temperature per cell *)
  (tracking_create root w = Ok SurfaceTracking ->
   forall c (x y : vec), In c (w_cells w) ->
     field_at (c_temperature c) (pt x) = field_at (c_temperature c) (pt y))
  (* rejected: an error if the global temperature varies *)
  /\ (In (n_text (n_child (n_child root "general") "tracking")) ["surface"; ""]%string ->
      (exists x y : vec, field_at (w_temperature w) (pt x) <> field_at (w_temperature w) (pt y)) ->
      exists msg, tracking_create root w = Throw msg).
Proof.
  intros X root w H. split.
  - intros T c x y Hc. unfold world_create in H. oinv H. subst w.
    assert (F : field_is_constant x3 = true).
    { unfold tracking_create, has_constant_temperature in T. cbn [w_temperature] in T.
      destruct (_ || _)%bool; [|destruct (String.eqb _ _); discriminate].
      destruct (field_is_constant x3); auto; discriminate. }
    cbn [w_cells] in Hc.
    match goal with E : create_cells _ _ _ _ _ = Ok _ |- _ =>
      destruct (create_cells_temperature _ _ _ _ _ _ E c Hc) as [->|[t ->]] end.
    + now apply field_constant.
    + reflexivity.
  - intros Ty (x & y & Ne). unfold tracking_create.
    set (ty := n_text (n_child (n_child root "general") "tracking")) in *.
    replace (String.eqb ty "" || String.eqb ty "surface")%bool with true.
    2: { destruct Ty as [<-|[<-|[]]]; reflexivity. }
    unfold has_constant_temperature. destruct (field_is_constant (w_temperature w)) eqn:E; eauto.
    exfalso. apply Ne. now apply field_constant.
Qed.

(** ** C49 *)

Lemma nudge_fin : exists k, nudge (A := XRa) = Fin k /\ 0 < k.
Proof.
  eexists. split; [reflexivity|]. cbn. apply Rmult_lt_0_compat; [lra|].
  apply Rinv_0_lt_compat. apply IZR_lt. reflexivity.
Qed.

Lemma C49_plane_crossed_proof :
  forall (c : R) (o u : vec) (d : R) (n : R),
  nudge (A := XRa) = Fin n ->
  distance (PlaneX (A := XRa) (Fin c)) (pt o) (pt u) = Fin d ->
  let after := along o u (d + n) in
  (vx o < c /\ c < vx after \/ c < vx o /\ vx after < c)
  /\ contains (PlaneX (A := XRa) (Fin c)) (pt after)
     = negb (contains (PlaneX (A := XRa) (Fin c)) (pt o)).
Proof.
  intros c o u d n En Ed after. destruct nudge_fin as (k & Ek & Hk). rewrite En in Ek.
  injection Ek as <-. rewrite planex_distance in Ed. destruct (Reqb_spec (vx u) 0); [discriminate|].
  destruct (Rltb_spec 0 ((c - vx o) / vx u)) as [P|]; [|discriminate]. injection Ed as <-.
  set (d := (c - vx o) / vx u) in *.
  assert (E : d * vx u = c - vx o) by (unfold d; field; auto).
  assert (Ea : vx after = c + n * vx u) by (unfold after, along; cbn; lra).
  rewrite !planex_contains.
  destruct (Rlt_le_dec 0 (vx u)) as [U|U].
  - assert (vx o < c) by nra. assert (c < vx after) by nra.
    split; [left; lra|]. rewrite Rltb_false, Rltb_true by lra. reflexivity.
  - assert (vx u < 0) by lra. assert (c < vx o) by nra. assert (vx after < c) by nra.
    split; [right; lra|]. rewrite Rltb_true, Rltb_false by lra. reflexivity.
Qed.

Lemma C49_sphere_crossed_proof :
  forall (c : vec) (r : R) (o u : vec) (d n : R),
  0 < r -> unit u -> nudge (A := XRa) = Fin n ->
  distance (Sphere (A := XRa) (pt c) (Fin r)) (pt o) (pt u) = Fin d ->
  let after := along o u (d + n) in
  (* leaving *)
  (dist o c <= r -> r < dist after c)
  (* entering, the sphere being left again after the distance [e] *)
  /\ (forall e, r < dist o c -> d < e -> on_sphere c r (along o u e) ->
      (d + n < e -> dist after c < r) /\ (e < d + n -> r < dist after c)).
Proof.
  intros c r o u d n Hr Hu En Ed after. destruct nudge_fin as (k & Ek & Hk). rewrite En in Ek.
  injection Ek as <-. rewrite sphere_distance in Ed by auto.
  set (b := 2 * dot (vsub o c) u) in *. set (k := dot (vsub o c) (vsub o c) - r * r) in *.
  assert (Q : forall t, dot (vsub (along o u t) c) (vsub (along o u t) c) - r * r = quad 1 b k t).
  { intros t. apply sphere_quad; auto. }
  assert (Dn : forall v, 0 <= dist v c /\ dist v c * dist v c = dot (vsub v c) (vsub v c)).
  { intros v. unfold dist, norm. split; [apply sqrt_pos|]. apply sqrt_sqrt. unfold dot. nra. }
  destruct (Rle_lt_dec (b * b - 4 * 1 * k) 0) as [H|H].
  { rewrite SolveQuadratic_none in Ed by auto. discriminate. }
  destruct (SolveQuadratic_roots 1 b k) as (r1 & r2 & L & E & Es); [lra|auto|].
  rewrite Es in Ed. assert (Ek : k = r1 * r2) by (pose proof (E 0) as E0; unfold quad in E0; lra).
  assert (Dt : forall t, dist (along o u t) c * dist (along o u t) c - r * r
               = (t - r1) * (t - r2)).
  { intros t. rewrite (proj2 (Dn _)), Q, E. ring. }
  assert (Do : dist o c * dist o c - r * r = r1 * r2).
  { rewrite (proj2 (Dn o)). fold k. exact Ek. }
  destruct (Dn o) as [Po _]. destruct (Dn after) as [Pa _].
  pose proof (Dt (d + n)) as Da. fold after in Da.
  destruct (Rltb_spec 0 r1) as [P1|P1].
  - injection Ed as <-. split.
    + intros Hi. exfalso. nra.
    + intros e Ho He On. pose proof (Dt e) as De. unfold on_sphere in On. rewrite On in De.
      assert (e = r2) by nra. subst e. split; intros; nra.
  - destruct (Rltb_spec 0 r2) as [P2|P2]; [|discriminate]. injection Ed as <-. split.
    + intros _. nra.
    + intros e Ho. exfalso. nra.
Qed.

(** In double precision: a flight along -x from x = 64 to the plane x = 32. *)
Lemma C49_binary64_refuted_proof :
  forall L : Libm,
  let A := F64 L in
  let plane := PlaneX (nofZ A 32) in
  let here := mkPoint (nofZ A 64) (nofZ A 0) (nofZ A 0) in
  let dir := mkPoint (nopp A (nofZ A 1)) (nofZ A 0) (nofZ A 0) in
  let d := distance plane here dir in
  let after := padd here (pscale dir (nadd A d nudge)) in
  d = nofZ A 32
  (* still on the same side, and the plane will not be met again *)
  /\ contains plane after = contains plane here
  /\ distance plane after dir = ninf A.
Proof. intros L. vm_compute. auto. Qed.

(** ** C67 *)

Lemma C67_source_in_void_refuted_proof :
  forall (A : Arith) (G : Rng A) (E : Type) (score : E -> particle A G -> outcome E)
    t fuel (w : world A) e (p : particle A G),
  p_event p = birth ->
  (* in a void cell: a null pointer is dereferenced *)
  (forall c, first_cell w (p_position p) c -> c_material c = None ->
     transport score t (S fuel) w e p = UB)
  (* in no cell: the program is terminated *)
  /\ ((forall c, In c (w_cells w) -> ~ inside c (p_position p)) ->
      transport score t fuel w e p = Terminate).
Proof.
  intros A G E score t fuel w e p B.
  assert (Al : forall c, is_alive (set_cell p c) = true).
  { intros c. unfold is_alive. cbn. now rewrite B. }
  split.
  - intros c Fc Em. unfold transport.
    assert (Ef : find_cell w (p_position p) = Ok c).
    { destruct Fc as (b & a & Ew & I & N). unfold find_cell. rewrite Ew.
      replace (find _ (b ++ c :: a)%list) with (Some c); auto.
      symmetry. clear Ew. induction b as [|x b IH]; cbn.
      - apply cell_contains_inside in I. now rewrite I.
      - destruct (cell_contains x (p_position p)) eqn:Cx.
        + exfalso. apply (N x); [now left|]. now apply cell_contains_inside.
        + apply IH. intros; apply N; now right. }
    rewrite Ef. cbn [bind transport_loop]. rewrite Al.
    assert (Es : sample_distance t (set_cell p c) = UB).
    { unfold sample_distance, get_material, get_cell. cbn [p_cell set_cell of_option bind].
      cbn. rewrite Em. reflexivity. }
    destruct t; cbn [transport_step]; [unfold surface_step|unfold delta_step]; rewrite Es; reflexivity.
  - intros N. unfold transport. destruct (C13_point_location_proof A w (p_position p)) as [_ H].
    destruct (proj2 H N) as [msg ->]. reflexivity.
Qed.
