(** A well-posed multigroup problem over the reals: every step of transport succeeds. *)
From Coq Require Import Bool String List Reals ZArith NArith Lra Lia.
From Verif Require Import Model.Num Model.Outcome Model.Rng Model.Xml Model.Std Model.Point
  Model.Surface Model.Types Model.Field Model.Particle Model.Multigroup Model.Thermal
  Model.Continuous Model.Material Model.World Model.Perturbation Model.Estimator Model.Transport Model.Driver
  Spec.Vec Spec.GeometrySpec Spec.CellSpec Spec.DirectionSpec Spec.RngSpec Spec.SumSpec
  Spec.MultigroupSpec Spec.MaterialSpec Spec.TransportSpec
  Proofs.OutcomeLib Proofs.RealLib Proofs.RngProofs Proofs.GeometryProofs Proofs.CellProofs
  Proofs.StreamProofs Proofs.StepLib Proofs.DirectionProofs Proofs.MultigroupProofs
  Proofs.MultigroupReal Proofs.MaterialProofs Proofs.TransportProofs.
Import ListNotations.
Local Open Scope R_scope.

Lemma mapM_total {X Y} (f : X -> outcome Y) l :
  (forall x, In x l -> exists y, f x = Ok y) -> exists r, mapM f l = Ok r.
Proof.
  induction l as [|x l IH]; intros H; cbn; [eauto|].
  destruct (H x (or_introl eq_refl)) as [y ->]. destruct IH as [r ->]; [|cbn; eauto].
  intros; apply H; now right.
Qed.

Lemma capture_secondaries (G : Rng XRa) (X : Ext XRa) n m (p q : particle XRa G) g :
  valid_rng G -> multigroup_create X n = Ok m -> sensible_data X n ->
  In g (groups (written_groups X n)) -> p_energy p = Group g ->
  0 < sigma X n Rcapture g + sigma X n Rscatter g + sigma X n Rfission g ->
  mg_interact m p = Ok q -> p_event q = capture -> p_secondaries q = p_secondaries p.
Proof.
  intros V H S Hg Ep T Eq Ev.
  destruct (reaction_selected G X n m p g V H S Hg Ep T) as (u & r & Eu & Hu & E & W & P & I).
  pose proof (multigroup_built X n m H) as B.
  set (p1 := set_rng p (snd (runif G (p_rng p)))) in *. cbn zeta in E. rewrite Eq in E.
  destruct r.
  - cbn in E. injection E as ->. reflexivity.
  - exfalso. assert (Ns : scatter_node n <> None).
    { cbn [written_xs] in W. unfold present in W. fold (scatter_node n) in W.
      destruct (is_null (scatter_node n)) eqn:Z; [discriminate|]. now apply is_null_false. }
    assert (Cs : 0 < column_sum X n (scatter_node n) g).
    { rewrite <- (proj2 (C21_total_reals_proof G X n m p g H S Hg Ep) Ns). exact P. }
    destruct (mg_scatter_real G X n m p1 g V B S Ns Hg Ep Cs)
      as (v & h & q' & E1 & _ & Eq' & Ev' & _). rewrite Eq' in E. cbn in E.
    injection E as ->. congruence.
  - exfalso. assert (Nf : fission_node n <> None).
    { cbn [written_xs] in W. unfold present in W. fold (fission_node n) in W.
      destruct (is_null (fission_node n)) eqn:Z; [discriminate|]. now apply is_null_false. }
    destruct (mg_fission_real G X n m p1 g V B S Nf Hg Ep)
      as (v & q' & new & _ & _ & Eq' & Ev' & _). rewrite Eq' in E. cbn in E.
    injection E as ->. congruence.
Qed.

Section WellPosed.
  Context (G : Rng XRa) (V : valid_rng G) (X : Ext XRa) (Gs : list N).
  Notation particle := (particle XRa G).
  Implicit Types p q : particle.

  Lemma nuclide_total m p nu a : multigroup_material X Gs m -> group_neutron Gs p ->
    In (nu, a) (m_afracs m) ->
    plain p (nu, a) /\ 0 < fraction (nu, a) /\ 0 < total_at p (nu, a).
  Proof.
    intros (_ & _ & Hm) [T (g & Eg & Hg) _ _] Hin.
    destruct (Hm nu a Hin) as ((f & -> & Hf) & n & mg & D & C & S & W & P).
    pose proof Hg as Hg'. rewrite <- W in Hg'.
    destruct (C21_total_reals_proof G X n mg p g C S Hg' Eg) as [Et _].
    assert (At : nu_at nu p = Ok (IMultigroup mg)).
    { apply nu_multigroup. rewrite T. exact D. }
    assert (E1 : nu_total nu p
      = Ok (Fin (sigma X n Rcapture g + sigma X n Rscatter g + sigma X n Rfission g))).
    { unfold nu_total. rewrite At. cbn [bind]. rewrite Et. reflexivity. }
    assert (E2 : nu_majorant nu p = nu_total nu p).
    { unfold nu_total, nu_majorant. rewrite At. reflexivity. }
    specialize (P g Hg). split; [|split; [exact Hf|unfold total_at; cbn [fst]; rewrite E1; exact P]].
    constructor; cbn [fst snd].
    - reflexivity.
    - unfold total_at. cbn [fst]. rewrite E1. reflexivity.
    - unfold majorant_at. cbn [fst]. rewrite E2, E1. reflexivity.
    - unfold total_at. cbn [fst]. rewrite E1. cbn. lra.
  Qed.

  Lemma material_total m p : multigroup_material X Gs m -> group_neutron Gs p ->
    List.Forall (plain p) (m_afracs m)
    /\ exists T, 0 < T /\ mat_total m p = Ok (Fin T) /\ mat_majorant m p = Ok (Fin T)
                 /\ weighted (total_at p) (m_afracs m) = T.
  Proof.
    intros Hm Hp.
    assert (Fo : List.Forall (plain p) (m_afracs m)).
    { apply Forall_forall. intros [nu a] Hin. now apply (nuclide_total m p nu a). }
    split; auto. exists (weighted (total_at p) (m_afracs m)). split.
    - pose proof Hm as (_ & Ne & _). destruct (m_afracs m) as [|[nu a] l] eqn:E; [congruence|].
      assert (In (nu, a) (m_afracs m)) by (rewrite E; now left).
      destruct (nuclide_total m p nu a Hm Hp H) as (_ & P1 & P2).
      rewrite weighted_cons. inversion Fo; subst.
      pose proof (weighted_nonneg p l H3). nra.
    - pose proof (mat_total_fin m p Fo) as E. split; [exact E|]. split; [|reflexivity].
      rewrite C31_multigroup_majorant_proof; [exact E|].
      intros [nu a] Hin. destruct Hm as (_ & _ & Hm). destruct (Hm nu a Hin) as (_ & n & mg & D & _).
      exists mg. rewrite (gn_type _ _ Hp). exact D.
  Qed.

  (** A live particle of the problem. *)
  Record live (w : world XRa) p : Prop := mkLive {
    lv_neutron : group_neutron Gs p;
    lv_material : exists c m, p_cell p = Some c /\ In c (w_cells w) /\ c_material c = Some m
  }.

  (** A secondary born by the particle [q]. *)
  Record newborn q (s : particle) : Prop := mkNewborn {
    nb_neutron : group_neutron Gs s;
    nb_event : p_event s = birth;
    nb_secondaries : p_secondaries s = [];
    nb_position : p_position s = p_position q;
    nb_cell : p_cell s = p_cell q
  }.

  Context (w : world XRa) (MW : multigroup_world X Gs w) (PG : plain_geometry w).

  Lemma density_live t p : live w p ->
    exists c m D T, p_cell p = Some c /\ In c (w_cells w) /\ c_material c = Some m
      /\ get_material p = Ok m /\ m_density m = Fin D /\ 0 < D
      /\ collision_density t p = Ok (Fin T) /\ 0 < T.
  Proof.
    intros [Hn (c & m & Ec & Hc & Em)]. pose proof (MW c m Hc Em) as Hm.
    destruct (material_total m p Hm Hn) as (_ & T & HT & E1 & E2 & _).
    pose proof Hm as ((D & ED & HD) & _).
    assert (Gm : get_material p = Ok m).
    { unfold get_material, get_cell. rewrite Ec. cbn. rewrite Em. reflexivity. }
    exists c, m, D, T. repeat split; auto. unfold collision_density. rewrite Gm. cbn [bind].
    destruct t; [rewrite E1|rewrite E2]; reflexivity.
  Qed.

  Lemma exponential_fin s u l : fst (runif G s) = Fin u -> 0 <= u < 1 -> l <> 0 ->
    exponential G (Fin l) s = (Fin (- ln (1 - u) / l), snd (runif G s)).
  Proof.
    intros Eu Hu Hl. unfold exponential. destruct (runif G s) as [u' s']. cbn in Eu. subst u'.
    cbn [snd]. cbn. unfold xsub. cbn. rewrite Rltb_true by lra. cbn.
    rewrite Reqb_false by auto. reflexivity.
  Qed.

  Lemma distance_live t p : live w p ->
    exists d, 0 <= d /\ sample_distance t p = Ok (Fin d, set_rng p (snd (runif G (p_rng p)))).
  Proof.
    intros L. destruct (density_live t p L) as (c & m & D & T & Ec & Hc & Em & Gm & ED & HD & ET & HT).
    destruct (V (p_rng p)) as (u & Eu & Hu). exists (- ln (1 - u) / (D * T)). split.
    - assert (ln (1 - u) <= ln 1).
      { destruct (Req_dec u 0) as [->|]; [rewrite Rminus_0_r; lra|].
        left. apply ln_increasing; lra. }
      rewrite ln_1 in H. apply Rmult_le_pos; [lra|]. left. apply Rinv_0_lt_compat. nra.
    - unfold sample_distance. rewrite Gm, ET. cbn [bind]. rewrite ED.
      pose proof (exponential_fin (p_rng p) u (D * T) Eu Hu ltac:(nra)) as E.
      change (nmul XRa (Fin D) (Fin T)) with (Fin (D * T)). rewrite E. reflexivity.
  Qed.

  Lemma stream_live t p x u d : live w p -> p_position p = pt x -> p_direction p = pt u ->
    exists q, stream t p (Fin d) = Ok q /\ p_position q = pt (along x u d)
      /\ q = set_position (set_indirect p (p_indirect q)) (pt (along x u d)).
  Proof.
    intros L Ex Eu. destruct (density_live t p L) as (c & m & D & T & Ec & Hc & Em & Gm & ED & HD & ET & HT).
    unfold stream. destruct (mapM_total
      (fun y => bind (pert_stream t (fst y) p (Fin d)) (fun s => Ok (fst y, nadd XRa (snd y) s)))
      (p_indirect p)) as [r Er].
    { intros [k v] _. unfold pert_stream. rewrite Gm. cbn [bind].
      destruct (existsb _ _); [rewrite ET|]; cbn; eauto. }
    change (num XRa) with xr in *. rewrite Er. cbn [bind noexcept].
    assert (E : padd (p_position p) (pscale (p_direction p) (Fin d)) = pt (along x u d)).
    { rewrite Ex, Eu, pscale_pt, padd_pt. reflexivity. }
    rewrite E. eexists. split; [reflexivity|]. split; reflexivity.
  Qed.

  Lemma nearest_live p c x u : live w p -> p_cell p = Some c -> p_position p = pt x ->
    p_direction p = pt u -> unit u ->
    exists s ds, nearest_surface c (p_position p) (p_direction p) = Ok (s, ds)
      /\ surface_of c s /\ (ds = PInf \/ exists r, ds = Fin r /\ 0 < r).
  Proof.
    intros [_ (c' & m & Ec & Hc & Em)] E Ex Eu Hu. rewrite Ec in E. injection E as ->.
    destruct (C11_nearest_surface_proof c x u) as [H _]; auto.
    { intros s. now apply (pg_shapes _ PG). }
    destruct H as (s & ds & En & Hs & Ed & _); [now apply (pg_bounded _ PG c m)|].
    exists s, ds. rewrite Ex, Eu. split; [exact En|]. split; auto. rewrite Ed. unfold surf_distance.
    apply real_shape_distance; auto. now apply (pg_shapes _ PG c s).
  Qed.

  Lemma find_cell_total x : exists c, find_cell w (pt x) = Ok c /\ first_cell w (pt x) c
                                      /\ In c (w_cells w).
  Proof.
    destruct (C13_point_location_proof XRa w (pt x)) as [_ H].
    destruct (pg_covers _ PG x) as (c & Hc & Ic).
    destruct (find_cell w (pt x)) as [c0|msg| | |] eqn:E.
    2: { exfalso. apply (proj1 H (ex_intro _ msg eq_refl) c Hc Ic). }
    2-4: exfalso; unfold find_cell in E; destruct (find _ _); discriminate.
    exists c0. split; auto. apply find_cell_first in E. split; auto. now apply first_cell_in in E.
  Qed.

  (** What a step yields. *)
  Record stepped p q : Prop := mkStepped {
    sp_world : exists c, p_cell q = Some c /\ In c (w_cells w);
    sp_type' : p_type q = neutron;
    sp_real : exists x, p_position q = pt x;
    sp_event' : p_event q = capture \/ p_event q = fission \/ p_event q = leak
                \/ p_event q = scatter \/ p_event q = surface_cross;
    sp_neutron : is_alive q = true -> live w q;
    sp_born : exists new, p_secondaries q = (p_secondaries p ++ new)%list
                /\ List.Forall (newborn q) new
                /\ (new <> [] -> exists c m, p_cell q = Some c /\ c_material c = Some m)
  }.

  Lemma cross_live t p p1 x u s r :
    live w p -> drew p p1 -> p_position p = pt x -> p_direction p = pt u -> unit u ->
    exists q, cross_surface t w s (Fin r) p1 = Ok q /\ stepped p q
      /\ first_cell w (p_position q) (match p_cell q with Some c => c | None => mkCell 0 "" [] None
           (w_temperature w) end).
  Proof.
    intros L D Ex Eu Hu.
    assert (L1 : live w p1).
    { destruct L as [[H1 H2 H3 H4] H5]. rewrite D. constructor; auto. constructor; auto. }
    assert (Nd : exists k, nudge (A := XRa) = Fin k) by (eexists; reflexivity).
    destruct Nd as [k Ek]. unfold cross_surface. rewrite Ek.
    change (nadd XRa (Fin r) (Fin k)) with (Fin (r + k)).
    destruct (stream_live t p1 x u (r + k) L1) as (q1 & E1 & P1 & Q1).
    { rewrite D. exact Ex. } { rewrite D. exact Eu. }
    change (num XRa) with xr in *. rewrite E1. cbn [bind]. rewrite P1.
    destruct (find_cell_total (along x u (r + k))) as (c & Ec & Fc & Hc). rewrite Ec. cbn [bind].
    eexists. split; [reflexivity|]. split.
    - constructor.
      + exists c. auto.
      + cbn. rewrite Q1, D. cbn. apply L.
      + eexists. cbn. exact P1.
      + cbn. destruct (c_material c); auto.
      + intros Al. constructor.
        * constructor; cbn; rewrite Q1, D; cbn; try apply L.
          -- eauto.
        * unfold is_alive in Al. cbn in Al. destruct (c_material c) as [m|] eqn:Em; [|discriminate].
          exists c, m. auto.
      + exists []. cbn. rewrite Q1, D, app_nil_r. cbn. repeat split; auto. congruence.
    - cbn. rewrite P1. exact Fc.
  Qed.

  Lemma collide_live fuel t p p1 x u d :
    live w p -> drew p p1 -> p_position p = pt x -> p_direction p = pt u -> unit u ->
    exists q, collide (A := XRa) fuel t (Fin d) p1 = Ok q /\ stepped p q
      /\ p_cell q = p_cell p /\ p_position q = pt (along x u d).
  Proof.
    intros L D Ex Eu Hu.
    assert (L1 : live w p1).
    { destruct L as [[H1 H2 H3 H4] H5]. rewrite D. constructor; auto. constructor; auto. }
    destruct (stream_live t p1 x u d L1) as (q1 & E1 & P1 & Q1).
    { rewrite D. exact Ex. } { rewrite D. exact Eu. }
    unfold collide. change (num XRa) with xr in *. rewrite E1. cbn [bind].
    assert (N1 : group_neutron Gs q1).
    { destruct L as [[H1 H2 H3 H4] H5]. rewrite Q1, D. constructor; cbn; eauto. }
    pose proof L as [_ (c & m & Ec & Hc & Em)]. pose proof (MW c m Hc Em) as Hm.
    destruct (material_total m q1 Hm N1) as (Fo & T & HT & _ & _ & ET).
    assert (Ec1 : p_cell q1 = Some c) by (rewrite Q1, D; exact Ec).
    destruct (sample_nuclide_fin G q1 c m V Ec1 Em Fo) as (v & nu & pre & a & post & _ & _ & Es & El & _).
    { rewrite ET. exact HT. }
    rewrite Es. cbn [bind]. set (q2 := set_rng q1 (snd (runif G (p_rng q1)))).
    assert (Hin : In (nu, a) (m_afracs m)) by (rewrite El; apply in_elt).
    pose proof Hm as (_ & _ & Hm'). destruct (Hm' nu a Hin) as (_ & n & mg & Dn & C & S & W & P).
    pose proof N1 as [T1 (g & Eg & Hg) _ _]. pose proof Hg as Hg'. rewrite <- W in Hg'.
    assert (Eg2 : p_energy q2 = Group g) by exact Eg.
    destruct (C24_reaction_choice_proof G X n mg q2 g V C S Hg' Eg2 (P g Hg))
      as (v2 & q & _ & _ & Ei & _ & _ & _ & Ev).
    assert (At : nu_at nu q2 = Ok (IMultigroup mg)).
    { apply nu_multigroup. change (p_type q2) with (p_type q1). rewrite T1. exact Dn. }
    exists q. split. { unfold nu_interact. rewrite At. cbn [bind]. rewrite Ei. reflexivity. }
    pose proof (mg_interact_place mg q2 q Ei) as [[I1 I2 I3 I4 _] _].
    assert (Pq : p_position q = pt (along x u d)) by (rewrite I1; exact P1).
    assert (Cq : p_cell q = p_cell p) by (rewrite I2; change (p_cell q2) with (p_cell q1); congruence).
    assert (Tq : p_type q = neutron) by (rewrite I3; exact T1).
    assert (Sq2 : p_secondaries q2 = p_secondaries p) by (cbn; rewrite Q1, D; reflexivity).
    split; [|split; auto].
    assert (K : (exists new, p_secondaries q = (p_secondaries p ++ new)%list
                  /\ List.Forall (newborn q) new)
                /\ (is_alive q = true -> live w q)).
    { destruct Ev as [Ev|[Ev|Ev]].
      - assert (Sq : p_secondaries q = p_secondaries q2).
        { exact (capture_secondaries G X n mg q2 q g V C S Hg' Eg2 (P g Hg) Ei Ev). }
        split; [exists []; rewrite app_nil_r; split; [congruence|auto]|]. unfold is_alive. rewrite Ev. discriminate.
      - destruct (C25_scatter_groups_proof G X n mg q2 q g V C S Hg' Eg2 (P g Hg) Ei Ev)
          as (v3 & h & _ & Hh & Eh & _ & _ & _ & Uq & _ & Sq).
        split; [exists []; rewrite app_nil_r; split; [congruence|auto]|]. intros _. constructor.
        + constructor; auto.
          * exists h. rewrite W in Hh. auto.
          * eauto.
          * destruct Uq as (u' & Eu' & Hu'). eauto.
        + exists c, m. rewrite Cq. auto.
      - destruct (C27_multigroup_secondaries_proof G X n mg q2 q g V C S Hg' Eg2 (P g Hg) Ei Ev)
          as (v3 & new & _ & Sq & _ & Fn & Dead & Pl).
        split; [|rewrite Dead; discriminate]. exists new. rewrite Sq, Sq2. split; auto.
        eapply Forall_impl; [|exact Fn].
        intros s (Bs & h & Eh & Hh & _). constructor.
        + constructor.
          * apply (bn_type _ _ Bs).
          * exists h. rewrite W in Hh. auto.
          * exists (along x u d). rewrite (bn_position _ _ Bs). exact P1.
          * destruct (bn_direction _ _ Bs) as (u' & Eu' & Hu'). eauto.
        + apply (bn_event _ _ Bs).
        + apply (bn_secondaries _ _ Bs).
        + rewrite (bn_position _ _ Bs). symmetry. apply (sp_position _ _ Pl).
        + rewrite (bn_cell _ _ Bs). symmetry. apply (sp_cell _ _ Pl). }
    destruct K as [(new & K1 & K2) K3]. constructor; auto.
    - exists c. rewrite Cq. auto.
    - eauto.
    - destruct Ev as [->|[->| ->]]; auto.
    - exists new. repeat split; auto. intros _. exists c, m. rewrite Cq. auto.
  Qed.

  Lemma step_live t fuel p : live w p ->
    exists q, transport_step t fuel w p = Ok q /\ stepped p q
      /\ (t = SurfaceTracking -> spheres_and_planes w -> inside_own_cell p -> ~ on_own_surface p ->
          inside_own_cell q).
  Proof.
    intros L. destruct (distance_live t p L) as (d & Hd & Ed).
    pose proof L as [[_ _ (x & Ex) (u & Eu & Hu)] (c & m & Ec & Hc & Em)].
    set (p1 := set_rng p (snd (runif G (p_rng p)))) in *.
    assert (D : drew p p1) by reflexivity.
    destruct (nearest_live p c x u L Ec Ex Eu Hu) as (s & ds & En & Hs & Hds).
    assert (Gc : get_cell p1 = Ok c) by (unfold get_cell; cbn; rewrite Ec; reflexivity).
    assert (L1 : live w p1).
    { destruct L as [[H1 H2 H3 H4] H5]. constructor; auto. constructor; auto. }
    assert (In_own : forall q, spheres_and_planes w -> inside_own_cell p -> ~ on_own_surface p ->
              p_cell q = p_cell p -> p_position q = pt (along x u d) -> before d ds ->
              inside_own_cell q).
    { intros q Sp (c' & Ec' & Ic') On Cq Pq Bd. rewrite Ec in Ec'. injection Ec' as <-.
      exists c. split; [congruence|]. rewrite Pq.
      apply (C12_flight_stays_in_cell_proof c x u s ds d); auto.
      - intros s'. apply (Sp c s' Hc).
      - rewrite <- Ex. exact Ic'.
      - intros s' Hs' O. apply On. exists c, s', x. auto.
      - rewrite <- Ex, <- Eu. exact En. }
    destruct t; cbn [transport_step].
    - unfold surface_step. change (num XRa) with xr in *. rewrite Ed. cbn [bind]. rewrite Gc.
      cbn [bind]. change (p_position p1) with (p_position p).
      change (p_direction p1) with (p_direction p). rewrite En. cbn [bind].
      destruct (nltb XRa (Fin d) ds) eqn:Lt.
      + destruct (collide_live fuel SurfaceTracking p p1 x u d L D Ex Eu Hu) as (q & E & St & Cq & Pq).
        exists q. split; [exact E|]. split; auto. intros _ Sp I0 O0. apply In_own; auto.
        destruct Hds as [->|(r & -> & _)]; cbn; auto. cbn in Lt. destruct (Rltb_spec d r); [auto|discriminate].
      + destruct Hds as [->|(r & -> & Hr)]; [discriminate|].
        destruct (cross_live SurfaceTracking p p1 x u s r L D Ex Eu Hu) as (q & E & St & Fc).
        exists q. split; [exact E|]. split; auto. intros _ _ _ _.
        destruct (sp_world _ _ St) as (c' & Ec' & _). exists c'. split; auto. rewrite Ec' in Fc.
        destruct Fc as (? & ? & _ & Ic & _). exact Ic.
    - unfold delta_step. change (num XRa) with xr in *. rewrite Ed. cbn [bind]. rewrite Gc.
      cbn [bind]. change (p_position p1) with (p_position p).
      change (p_direction p1) with (p_direction p). rewrite En. cbn [bind].
      destruct (nltb XRa ds (Fin d)) eqn:Lt.
      + destruct Hds as [->|(r & -> & Hr)]; [discriminate|].
        destruct (cross_live CellDeltaTracking p p1 x u s r L D Ex Eu Hu) as (q & E & St & _).
        exists q. split; [exact E|]. split; auto. discriminate.
      + destruct (density_live CellDeltaTracking p1 L1)
          as (c1 & m1 & _ & _ & Ec1 & _ & Em1 & Gm & _).
        rewrite Gm. cbn [bind]. cbn in Ec1. rewrite Ec in Ec1. injection Ec1 as <-.
        rewrite Em in Em1. injection Em1 as <-.
        destruct (material_total m p1 (MW c m Hc Em) (lv_neutron _ _ L1)) as (_ & T & HT & E1 & E2 & _).
        rewrite E1, E2. cbn [bind]. unfold bernoulli. destruct (V (p_rng p1)) as (v & Ev & Hv).
        destruct (runif G (p_rng p1)) as [v' s']. cbn in Ev. subst v'.
        replace (nltb XRa (Fin v) (ndiv XRa (Fin T) (Fin T))) with true.
        2: { cbn. rewrite Reqb_false by lra. symmetry. apply Rltb_true. unfold Rdiv.
             rewrite Rinv_r by lra. lra. }
        assert (D2 : drew p (set_rng p1 s')) by reflexivity.
        destruct (collide_live fuel CellDeltaTracking p _ x u d L D2 Ex Eu Hu)
          as (q & E & St & Cq & Pq).
        exists q. split; [exact E|]. split; auto. discriminate.
  Qed.
  (** Steps taken while alive. *)
  Inductive steps t p : particle -> Prop :=
    | Steps_start : steps t p p
    | Steps_next fuel x y : steps t p x -> is_alive x = true ->
        transport_step t fuel w x = Ok y -> steps t p y.

  Lemma steps_live t p x : (is_alive p = true -> live w p) -> steps t p x ->
    is_alive x = true -> live w x.
  Proof.
    intros Hp H. induction H as [|fuel x y Hx IH Ax E]; auto. intros Ay.
    destruct (step_live t fuel x (IH Ax)) as (q & Eq & St & _). rewrite E in Eq.
    injection Eq as <-. now apply (sp_neutron _ _ St).
  Qed.

  Lemma steps_cons t fuel p q x : is_alive p = true -> transport_step t fuel w p = Ok q ->
    steps t q x -> steps t p x.
  Proof.
    intros Al E H. induction H as [|f x y _ IH Ax Ey].
    - apply (Steps_next t p fuel p q); auto. constructor.
    - apply (Steps_next t p f x y); auto.
  Qed.

  Lemma loop_live {E : Type} (score : E -> particle -> outcome E) t :
    (forall e x, exists e', score e x = Ok e') ->
    forall fuel e p, (is_alive p = true -> live w p) ->
    transport_loop score t fuel w e p = OutOfFuel
    \/ exists e' q, transport_loop score t fuel w e p = Ok (e', q) /\ is_alive q = false
         /\ steps t p q
         /\ forall s, In s (p_secondaries q) -> In s (p_secondaries p)
              \/ exists x, steps t p x /\ newborn x s
                   /\ exists c m, p_cell x = Some c /\ c_material c = Some m.
  Proof.
    intros Hs. induction fuel as [|fuel IH]; intros e p Hp; cbn [transport_loop];
      destruct (is_alive p) eqn:Al.
    - now left.
    - right. exists e, p. repeat split; auto. constructor.
    - destruct (step_live t fuel p (Hp eq_refl)) as (q & Eq & St & _). rewrite Eq. cbn [bind].
      destruct (Hs e q) as [e1 ->]. cbn [bind].
      destruct (IH e1 q) as [->|(e' & q' & -> & Dq & Sq & Hq)]; [apply (sp_neutron _ _ St)|now left|].
      right. exists e', q'. repeat split; auto.
      + apply (steps_cons t fuel p q); auto.
      + intros s Hin. destruct (sp_born _ _ St) as (new & En & Fn & Mn).
        destruct (Hq s Hin) as [Hq'|(x & Sx & Nx & Mx)].
        * rewrite En in Hq'. apply in_app_iff in Hq' as [|Hn]; auto. right. exists q.
          split; [|split].
          -- apply (Steps_next t p fuel p q); auto. constructor.
          -- rewrite Forall_forall in Fn. auto.
          -- apply Mn. intros ->. destruct Hn.
        * right. exists x. split; auto. apply (steps_cons t fuel p q); auto.
    - right. exists e, p. repeat split; auto. constructor.
  Qed.

  Lemma steps_inside p x : spheres_and_planes w -> (is_alive p = true -> live w p) ->
    inside_own_cell p -> (forall x, steps SurfaceTracking p x -> ~ on_own_surface x) ->
    steps SurfaceTracking p x -> inside_own_cell x.
  Proof.
    intros Sp Hp Ip Off H. pose proof (steps_live SurfaceTracking p) as L.
    induction H as [|fuel x y Hx IH Ax E]; auto.
    destruct (step_live SurfaceTracking fuel x) as (q & Eq & _ & K); [now apply (L x)|].
    rewrite E in Eq. injection Eq as <-. apply K; auto.
  Qed.
End WellPosed.

(** Transport of a neutron born in a material. *)
Lemma transport_live (G : Rng XRa) X Gs (w : world XRa) (E : Type)
    (score : E -> particle XRa G -> outcome E) t fuel e (p : particle XRa G) c m :
  valid_rng G -> multigroup_world X Gs w -> plain_geometry w ->
  (forall e x, exists e', score e x = Ok e') ->
  group_neutron Gs p -> first_cell w (p_position p) c -> c_material c = Some m ->
  transport score t fuel w e p = OutOfFuel
  \/ exists e' q, transport score t fuel w e p = Ok (e', q) /\ is_alive q = false
       /\ steps G w t (set_cell p c) q
       /\ forall s, In s (p_secondaries q) -> In s (p_secondaries p)
            \/ exists x, steps G w t (set_cell p c) x /\ newborn G Gs x s
                 /\ exists c m, p_cell x = Some c /\ c_material c = Some m.
Proof.
  intros V MW PG Hs Hn Fc Em. unfold transport.
  assert (Ef : find_cell w (p_position p) = Ok c).
  { destruct (gn_position _ _ Hn) as (x & Ex). rewrite Ex in *.
    destruct (find_cell_total w PG x) as (c' & Ec' & Fc' & _). rewrite Ec'. f_equal.
    clear - Fc Fc'. destruct Fc as (b & a & E & I & N). destruct Fc' as (b' & a' & E' & I' & N').
    rewrite E in E'. clear E. revert b' E' N'. induction b as [|x0 b IH]; intros [|x1 b'] E' N';
      cbn in E'; injection E'.
    - auto.
    - intros _ ->. exfalso. apply (N' x1); [now left|auto].
    - intros _ ->. exfalso. apply (N c'); [now left|auto].
    - intros E1 ->. apply (IH ltac:(intros; apply N; now right) b'); auto.
      intros; apply N'; now right. }
  rewrite Ef. cbn [bind].
  destruct (loop_live G V X Gs w MW PG score t Hs fuel e (set_cell p c))
    as [->|(e' & q & -> & H)]; [|now left|].
  - intros _. constructor.
    + destruct Hn; constructor; auto.
    + exists c, m. repeat split; auto. now apply first_cell_in in Fc.
  - right. exists e', q. split; [reflexivity|exact H].
Qed.

Lemma C71_transport_never_fails_proof :
  forall (G : Rng XRa) (X : Ext XRa) Gs (w : world XRa) (E : Type)
    (score : E -> particle XRa G -> outcome E) t fuel e (p : particle XRa G) c m,
  valid_rng G -> multigroup_world X Gs w -> plain_geometry w ->
  (forall e x, exists e', score e x = Ok e') ->
  group_neutron Gs p -> first_cell w (p_position p) c -> c_material c = Some m ->
  transport score t fuel w e p = OutOfFuel
  \/ exists e' q, transport score t fuel w e p = Ok (e', q).
Proof.
  intros. destruct (transport_live G X Gs w E score t fuel e p c m)
    as [?|(e' & q & ? & _)]; eauto.
Qed.

Lemma steps_reachable (G : Rng XRa) (w : world XRa) t pts (start p x : particle XRa G) :
  reachable t w pts start p -> steps G w t p x -> reachable t w pts start x.
Proof.
  intros Hp H. induction H as [|fuel x y _ IH Al E]; auto. eapply Reach_step; eauto.
Qed.

Lemma C71_history_never_fails_proof :
  forall (G : Rng XRa) (X : Ext XRa) Gs (E : Type) (score : E -> particle XRa G -> outcome E)
    (dr : @driver XRa) fuel e (p : particle XRa G) c m,
  let w := dr_world dr in let pts := dr_perts dr in
  valid_rng G -> multigroup_world X Gs w -> plain_geometry w ->
  (forall e x, exists e', score e x = Ok e') ->
  dr_tracking dr = SurfaceTracking -> spheres_and_planes w -> disjoint_cells w ->
  group_neutron Gs p -> p_secondaries p = [] ->
  first_cell w (p_position p) c -> c_material c = Some m ->
  (forall x, reachable SurfaceTracking w pts (set_cell (set_perturbations pts p) c) x ->
     ~ on_own_surface x) ->
  bank_loop score dr fuel e [p] = OutOfFuel \/ exists e', bank_loop score dr fuel e [p] = Ok e'.
Proof.
  intros G X Gs E score dr fuel e p c m w pts V MW PG Hs Ht Sp Dj Hn Ns Fc Em Off.
  set (start := set_cell (set_perturbations pts p) c) in *.
  set (good := fun s : particle XRa G => group_neutron Gs s /\ p_secondaries s = []
    /\ exists c m, first_cell w (p_position s) c /\ c_material c = Some m
       /\ reachable SurfaceTracking w pts start (set_cell (set_perturbations pts s) c)).
  assert (K : forall fuel e bank, List.Forall good bank ->
    bank_loop score dr fuel e bank = OutOfFuel
    \/ exists e', bank_loop score dr fuel e bank = Ok e').
  2: { apply K. constructor; [|constructor]. repeat split; auto; try apply Hn.
       exists c, m. repeat split; auto. constructor. }
  clear fuel e. induction fuel as [|fuel IH]; intros e bank Hb; cbn [bank_loop];
    destruct (rev bank) as [|back rest] eqn:Er; eauto.
  assert (Eb : bank = (rev rest ++ [back])%list).
  { rewrite <- (rev_involutive bank), Er. reflexivity. }
  rewrite Eb in Hb. apply Forall_app in Hb as [Hrest Hback].
  inversion Hback as [|? ? (Bn & Bs & c0 & m0 & B1 & B2 & B3) _]; subst.
  set (b := set_perturbations pts back) in *.
  assert (Nb : group_neutron Gs b) by (destruct Bn; constructor; auto).
  rewrite Ht. fold w pts. fold b.
  destruct (transport_live G X Gs w E score SurfaceTracking fuel e b c0 m0 V MW PG Hs Nb B1 B2)
    as [->|(e' & q & -> & Dq & Sq & Hq)]; [now left|]. cbn [bind]. apply IH.
  apply Forall_app. split; auto. apply Forall_forall. intros s Hin.
  destruct (Hq s Hin) as [Hin'|(x & Sx & [N1 N2 N3 N4 N5] & cx & mx & Ex & Mx)].
  { cbn in Hin'. rewrite Bs in Hin'. destruct Hin'. }
  assert (Lb : is_alive (set_cell b c0) = true -> live G Gs w (set_cell b c0)).
  { intros _. constructor.
    + destruct Nb; constructor; auto.
    + exists c0, m0. repeat split; auto. now apply first_cell_in in B1. }
  assert (Offb : forall y, steps G w SurfaceTracking (set_cell b c0) y -> ~ on_own_surface y).
  { intros y Sy. apply Off. eapply steps_reachable; eauto. }
  assert (Ib : inside_own_cell (set_cell b c0)).
  { exists c0. split; auto. destruct B1 as (? & ? & _ & I1 & _). exact I1. }
  destruct (steps_inside G V X Gs w MW PG (set_cell b c0) x Sp Lb Ib Offb Sx)
    as (c1 & Ec1 & Ic1).
  rewrite Ex in Ec1. injection Ec1 as <-.
  assert (Hcx : In cx (w_cells w)).
  { clear - Sx Ex V MW PG Lb B1. assert (exists d, p_cell x = Some d /\ In d (w_cells w)).
    { pose proof (steps_live G V X Gs w MW PG SurfaceTracking (set_cell b c0)) as L.
      destruct Sx as [|fuel x y Hx Ax Ey].
      - exists c0. split; auto. now apply first_cell_in in B1.
      - destruct (step_live G V X Gs w MW PG SurfaceTracking fuel x) as (q & Eq & St & _); auto.
        rewrite Ey in Eq. injection Eq as <-. apply (sp_world _ _ _ _ _ St). }
    destruct H as (d & Ed & Hd). congruence. }
  destruct (gn_position _ _ N1) as (xs & Exs).
  destruct (find_cell_total w PG xs) as (cs & _ & Fcs & Hcs).
  assert (cs = cx).
  { apply (Dj cs cx xs); auto.
    - destruct Fcs as (? & ? & _ & I1 & _). exact I1.
    - rewrite <- Exs, N4. exact Ic1. }
  subst cs. rewrite <- Exs in Fcs. repeat split; auto; try apply N1.
  exists cx, mx. repeat split; auto.
  apply (Reach_child SurfaceTracking w pts start q s cx); auto.
  eapply steps_reachable; eauto.
Qed.

Lemma chain_Forall {G : Rng XRa} (R : particle XRa G -> particle XRa G -> Prop)
    (P : particle XRa G -> Prop) :
  (forall x y, R x y -> P y) -> forall l p, chain R p l -> List.Forall P l.
Proof. intros H. induction l as [|q l IH]; intros p C; constructor; destruct C; eauto. Qed.

(** Walks of a neutron born in a material. *)
Lemma live_walk (G : Rng XRa) (X : Ext XRa) Gs (w : world XRa) (E : Type)
    (score : E -> particle XRa G -> outcome E) t fuel e (p : particle XRa G) c m e' q :
  valid_rng G -> multigroup_world X Gs w -> plain_geometry w -> p_event p = birth ->
  group_neutron Gs p -> first_cell w (p_position p) c -> c_material c = Some m ->
  transport score t fuel w e p = Ok (e', q) ->
  exists visited,
    chain (fun x y => one_event t w x y
             /\ (ended y \/ p_event y = scatter \/ p_event y = surface_cross)
             /\ (t = SurfaceTracking -> spheres_and_planes w -> inside_own_cell x ->
                 ~ on_own_surface x -> inside_own_cell y)) (set_cell p c) visited
    /\ visited <> [] /\ last visited (set_cell p c) = q /\ foldM score visited e = Ok e'
    /\ is_alive q = false
    /\ List.Forall (fun x => is_alive x = true) (removelast visited).
Proof.
  intros V MW PG B Hn Fc Em H. unfold transport in H. apply -> @noexcept_ok in H.
  apply bind_ok in H as (c' & Ec & H).
  assert (c' = c).
  { clear H. apply find_cell_first in Ec. revert Fc Ec. generalize (w_cells w) as l.
    intros _ (b & a & E1 & I & N) (b' & a' & E' & I' & N').
    rewrite E1 in E'. clear E1. revert b' E' N'. induction b as [|x0 b IH]; intros [|x1 b'] E' N';
      cbn in E'; injection E'.
    - auto.
    - intros _ ->. exfalso. apply (N' x1); [now left|auto].
    - intros _ ->. exfalso. apply (N c'); [now left|auto].
    - intros E1 ->. apply (IH ltac:(intros; apply N; now right) b'); auto.
      intros; apply N'; now right. }
  subst c'. apply (loop_chain score t w (fun x => is_alive x = true -> live G Gs w x)
    (fun x y => one_event t w x y
             /\ (ended y \/ p_event y = scatter \/ p_event y = surface_cross)
             /\ (t = SurfaceTracking -> spheres_and_planes w -> inside_own_cell x ->
                 ~ on_own_surface x -> inside_own_cell y))) in H.
  - destruct H as (l & C & L & F & Dq & Fo & Fa & Nn). exists l.
    assert (Al : is_alive (set_cell p c) = true) by (unfold is_alive; cbn; now rewrite B).
    repeat split; auto. specialize (Nn Al). rewrite removelast_cons in Fa by auto.
    now inversion Fa.
  - intros f x y Lx Ax Hxy. destruct (step_live G V X Gs w MW PG t f x (Lx Ax)) as (y' & E1 & St & K).
    rewrite Hxy in E1. injection E1 as <-. pose proof (step_event _ _ _ _ _ Hxy) as Ev.
    split; [apply (sp_neutron _ _ _ _ _ St)|]. split; auto. split; auto. unfold ended.
    destruct (sp_event' _ _ _ _ _ St) as [?|[?|[?|[?|?]]]]; auto.
  - intros _. constructor.
    + destruct Hn; constructor; auto.
    + exists c, m. repeat split; auto. now apply first_cell_in in Fc.
Qed.

Lemma C45_multigroup_proof :
  forall (G : Rng XRa) (X : Ext XRa) Gs (w : world XRa) (E : Type)
    (score : E -> particle XRa G -> outcome E) t fuel e (p : particle XRa G) c m e' q,
  valid_rng G -> multigroup_world X Gs w -> plain_geometry w -> p_event p = birth ->
  group_neutron Gs p -> first_cell w (p_position p) c -> c_material c = Some m ->
  transport score t fuel w e p = Ok (e', q) ->
  exists visited, foldM score visited e = Ok e' /\ last visited p = q
    /\ chain (one_event t w) (set_cell p c) visited
    /\ ended q /\ List.Forall goes_on (removelast visited)
    /\ List.Forall (fun x => p_event x <> virtual_collision) visited.
Proof.
  intros G X Gs w E score t fuel e p c m e' q V MW PG B Hn Fc Em H.
  apply live_walk with (c := c) (m := m) (X := X) (Gs := Gs) in H; auto.
  destruct H as (l & C & Ne & L & F & Dq & Fa). exists l.
  assert (Ll : last l p = q).
  { destruct l as [|a l]; [congruence|]. rewrite <- L. clear. revert a.
    induction l; intros; cbn in *; auto. }
  assert (Fe : List.Forall
    (fun y => ended y \/ p_event y = scatter \/ p_event y = surface_cross) l).
  { eapply chain_Forall; [|exact C]. cbn. tauto. }
  repeat split; auto.
  - clear - C. revert C. generalize (set_cell p c). induction l; cbn; intuition.
  - now apply alive_ended.
  - apply Forall_forall. intros x Hx. rewrite Forall_forall in *.
    assert (Hx' : In x l).
    { destruct (exists_last Ne) as (l' & z & ->). rewrite removelast_last in Hx.
      apply in_app_iff; auto. }
    unfold goes_on. destruct (Fe x Hx') as [En|[?|?]]; auto. exfalso.
    apply Fa in Hx. apply alive_not_ended in Hx. auto.
  - eapply Forall_impl; [|exact Fe]. intros x [[?|[?|?]]|[?|?]]; congruence.
Qed.

Lemma C46_inside_proof :
  forall (G : Rng XRa) (X : Ext XRa) Gs (w : world XRa) (E : Type)
    (score : E -> particle XRa G -> outcome E) fuel e (p : particle XRa G) c m e' q,
  valid_rng G -> multigroup_world X Gs w -> plain_geometry w -> p_event p = birth ->
  group_neutron Gs p -> first_cell w (p_position p) c -> c_material c = Some m ->
  spheres_and_planes w ->
  transport score SurfaceTracking fuel w e p = Ok (e', q) ->
  exists visited, foldM score visited e = Ok e' /\ last visited p = q
    /\ chain (one_event SurfaceTracking w) (set_cell p c) visited
    /\ (List.Forall (fun x => ~ on_own_surface x) (set_cell p c :: removelast visited) ->
        List.Forall inside_own_cell visited).
Proof.
  intros G X Gs w E score fuel e p c m e' q V MW PG B Hn Fc Em Sp H.
  apply live_walk with (c := c) (m := m) (X := X) (Gs := Gs) in H; auto.
  destruct H as (l & C & Ne & L & F & Dq & Fa). exists l.
  assert (Ll : last l p = q).
  { destruct l as [|a l]; [congruence|]. rewrite <- L. clear. revert a.
    induction l; intros; cbn in *; auto. }
  repeat split; auto.
  - clear - C. revert C. generalize (set_cell p c). induction l; cbn; intuition.
  - assert (I0 : inside_own_cell (set_cell p c)).
    { exists c. split; auto. destruct Fc as (? & ? & _ & I1 & _). exact I1. }
    clear - C I0 Sp. revert C I0. generalize (set_cell p c).
    induction l as [|y l IH]; intros x C I0 Off; constructor; destruct C as [(_ & _ & K) C].
    + inversion Off; subst. auto.
    + inversion Off; subst. destruct l as [|z l]; [constructor|].
      apply (IH y); auto.
Qed.
