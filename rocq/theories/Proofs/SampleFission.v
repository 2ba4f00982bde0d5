(** A family for the examples: a neutron causes a fission that yields two neutrons,
    and both are captured. *)
From Coq Require Import Bool String List Reals ZArith NArith Lra Lia.
From Coquelicot Require Rcomplements.
From Verif Require Import Model.Num Model.Outcome Model.Rng Model.Xml Model.Std Model.Point
  Model.Surface Model.Types Model.Bins Model.Field Model.Particle Model.Multigroup
  Model.Continuous Model.Material Model.World Model.Perturbation Model.Estimator Model.Transport
  Model.Driver
  Spec.Vec Spec.GeometrySpec Spec.CellSpec Spec.DirectionSpec Spec.RngSpec Spec.SumSpec
  Spec.MultigroupSpec Spec.MaterialSpec Spec.TextExt Spec.TransportSpec Spec.HistorySpec
  Proofs.OutcomeLib Proofs.RealLib Proofs.RngProofs Proofs.GeometryProofs Proofs.CellProofs
  Proofs.StreamProofs Proofs.StepLib Proofs.DirectionProofs Proofs.MultigroupProofs
  Proofs.MultigroupReal Proofs.MaterialProofs Proofs.TransportProofs Proofs.WellPosed
  Proofs.CrossingProofs Proofs.SampleProblem Proofs.FuelProofs Proofs.HistoryProofs.
Import ListNotations.
Local Open Scope string_scope.
Local Open Scope R_scope.

(** A generator whose streams are constant: 3/4 for the seed 1, else 1/4. *)
Definition two_rng : Rng XRa :=
  mkRng XRa bool (fun z => (z =? 1)%Z) (fun s => (2%Z, s))
    (fun s => (Fin (if s then 3 / 4 else 1 / 4), s)).
Lemma two_valid : valid_rng two_rng.
Proof. intros s. exists (if s then 3 / 4 else 1 / 4). split; [reflexivity|]. destruct s; lra. Qed.

(** Half of the collisions are captures, half are fissions. *)
Definition pile_document : node :=
  document [Elem "nuclides" [] [Elem "multigroup" [("groups", "1")]
    [Elem "nuclide" [("name", "fuel")]
       [Elem "neutron" [] [text_node "capture" "1";
          Elem "fission" [] [text_node "xs" "1"; text_node "nubar" "2"; text_node "chi" "1"] ""]
          ""] ""] ""] ""].
Definition pile_node : node :=
  n_child (n_child (n_child (n_child pile_document "nuclides") "multigroup") "nuclide") "neutron".
Definition pile_data : multigroup XRa :=
  match multigroup_create slab_ext pile_node with
  | Ok m => m
  | _ => mkMultigroup (A := XRa) None None None [] [] 0
  end.
Lemma pile_created : multigroup_create slab_ext pile_node = Ok pile_data.
Proof. reflexivity. Qed.
Lemma pile_groups : groups (written_groups slab_ext pile_node) = [1]%N.
Proof. reflexivity. Qed.
Lemma pile_sensible : sensible_data slab_ext pile_node.
Proof.
  constructor.
  - intros c Hc N. cbn in Hc.
    repeat (destruct Hc as [<-|Hc];
      [first [ exfalso; apply N; reflexivity
             | cbn; repeat constructor; eexists; (split; [reflexivity|decs; lra]) ]|]).
    destruct Hc.
  - intros _. split; discriminate.
  - cbn. repeat constructor; cbn; decs; lra.
  - reflexivity.
Qed.
Lemma pile_sigma : sigma slab_ext pile_node Rcapture 1 = 1
  /\ sigma slab_ext pile_node Rscatter 1 = 0 /\ sigma slab_ext pile_node Rfission 1 = 1.
Proof.
  unfold sigma, column_sum, column_below, weight, written_xs.
  rewrite ?pile_groups; cbn; unfold Pos.to_nat; cbn; decs. repeat split; lra.
Qed.
Lemma pile_yield : real_of (vector_entry slab_ext (nubar_node pile_node) 1) = 2
  /\ 0 < column_sum slab_ext pile_node (chi_node pile_node) 1.
Proof.
  unfold column_sum, column_below, weight, vector_entry.
  rewrite ?pile_groups; cbn; unfold Pos.to_nat; cbn; decs. repeat split; lra.
Qed.

Definition fuel_nuclide : nuclide XRa := mkNuclide 0 "fuel" [(neutron, IMultigroup pile_data)].
Definition pile_material : material XRa :=
  mkMaterial (A := XRa) "fuel" [(fuel_nuclide, Fin 1)] (Fin 1).
Definition pile : cell XRa := mkCell 0 "pile" [(edge, true)] (Some pile_material) warmth.
Definition pile_world : world XRa :=
  mkWorld [edge] [fuel_nuclide] [pile_material] warmth [pile; outside].
Lemma in_pile x : inside pile (pt x) <-> vx x < 10.
Proof.
  split.
  - intros H. apply (edge_sense x true). apply (H edge true). now left.
  - intros H s b [[= <- <-]|[]]. now apply (edge_sense x true).
Qed.
Lemma pile_multigroup : multigroup_world slab_ext [1]%N pile_world.
Proof.
  intros c m [<-|[<-|[]]] [= <-]. split; [|split; [discriminate|]].
  - exists 1. split; [reflexivity|lra].
  - intros nu a [[= <- <-]|[]]. split; [exists 1; split; [reflexivity|lra]|].
    exists pile_node, pile_data. split; [reflexivity|]. split; [exact pile_created|].
    split; [exact pile_sensible|]. split; [exact pile_groups|].
    intros g [<-|[]]. destruct pile_sigma as (-> & -> & ->). lra.
Qed.
Lemma pile_total (G : Rng XRa) (p : particle XRa G) :
  group_neutron [1]%N p -> mat_total pile_material p = Ok (Fin 2).
Proof.
  intros Hn.
  destruct (material_total G slab_ext [1]%N pile_material p
    (pile_multigroup pile pile_material (or_introl eq_refl) eq_refl) Hn)
    as (_ & T & _ & E1 & E2 & E3).
  assert (T = 2).
  { rewrite <- E3. cbn [m_afracs pile_material]. rewrite weighted_cons. unfold weighted. cbn.
    destruct (C21_total_reals_proof G slab_ext pile_node pile_data p 1 pile_created
      pile_sensible) as [Et _].
    { rewrite pile_groups. now left. }
    { destruct (gn_group _ _ Hn) as (g & Eg & [<-|[]]). exact Eg. }
    destruct pile_sigma as (S1 & S2 & S3). rewrite S1, S2, S3 in Et.
    unfold total_at, nu_total, nu_at. rewrite (gn_type _ _ Hn).
    change (fst (fuel_nuclide, (Fin 1 : num XRa))) with fuel_nuclide.
    change (nu_xs fuel_nuclide) with [(neutron, IMultigroup pile_data)].
    cbn [find fst snd ptype_eqb bind]. rewrite Et. cbn. lra. }
  rewrite H in E1. auto.
Qed.

Lemma ln4_bounds : 0 < ln 4 < 2.
Proof.
  replace 4 with (2 * 2) by lra. rewrite ln_mult by lra. pose proof ln2_bounds. lra.
Qed.

Lemma sample_nuclide_rng {A : Arith} {G : Rng A} (p : particle A G) nu q :
  sample_nuclide p = Ok (nu, q) -> p_rng q = snd (runif G (p_rng p)).
Proof.
  unfold sample_nuclide. intros H. oinv H. destruct (p_cell p) as [c|]; [|discriminate].
  destruct (c_material c) as [m|]; [|discriminate]. oinv H. unfold p_unif in H.
  destruct (runif G (p_rng p)) as [u s]. oinv H.
  destruct x0 as [nu'|]; [|discriminate]. injection H as _ <-. reflexivity.
Qed.

(** A step far from the edge, by whether the stream is the fission stream. *)
Lemma pile_step fuel (p : particle XRa two_rng) x :
  p_cell p = Some pile -> p_position p = pt x -> vx x < 8 -> group_neutron [1]%N p ->
  exists q y, transport_step SurfaceTracking fuel pile_world p = Ok q /\ ended q
    /\ p_position q = pt y /\ vx y < vx x + 2
    /\ (p_rng p = false -> p_secondaries q = p_secondaries p)
    /\ (p_rng p = true -> exists c1 c2, p_secondaries q = (p_secondaries p ++ [c1; c2])%list
         /\ forall c, In c [c1; c2] -> p_rng c = false /\ group_neutron [1]%N c
            /\ p_event c = birth /\ p_secondaries c = [] /\ p_position c = pt y).
Proof.
  intros Ec Ex Hx Hn.
  assert (L : live two_rng [1]%N pile_world p).
  { constructor; auto. exists pile, pile_material. split; auto. split; [now left|reflexivity]. }
  destruct (gn_direction _ _ Hn) as (u & Eu & Hu).
  assert (Ed : exists d, 0 <= d <= 1 /\ sample_distance SurfaceTracking p
             = Ok (Fin d, set_rng p (snd (runif two_rng (p_rng p))))).
  { set (r := if p_rng p then 3 / 4 else 1 / 4).
    assert (Hr : 1 / 4 <= r <= 3 / 4) by (unfold r; destruct (p_rng p); lra).
    exists (- ln (1 - r) / (1 * 2)). split.
    - replace (- ln (1 - r)) with (ln (/ (1 - r))) by (apply ln_Rinv; lra).
      pose proof ln4_bounds. split.
      + assert (0 <= ln (/ (1 - r))); [|lra]. rewrite <- ln_1. apply Rcomplements.ln_le; [lra|].
        replace 1 with (/ 1) at 1 by lra. apply Rinv_le_contravar; lra.
      + assert (ln (/ (1 - r)) <= ln 4); [|lra]. apply Rcomplements.ln_le.
        * apply Rinv_0_lt_compat. lra.
        * replace 4 with (/ (1 / 4)) by lra. apply Rinv_le_contravar; lra.
    - unfold sample_distance, collision_density, get_material, get_cell. rewrite Ec.
      cbn [of_option bind c_material pile].
      rewrite (pile_total two_rng p Hn). cbn [noexcept bind].
      change (m_density pile_material) with (Fin 1 : num XRa).
      change (nmul XRa (Fin 1) (Fin 2)) with (Fin (1 * 2)).
      rewrite (exponential_fin two_rng (p_rng p) r (1 * 2) eq_refl ltac:(lra) ltac:(lra)).
      reflexivity. }
  destruct Ed as (d & Hd & Ed).
  assert (Ux : vx u <= 1).
  { assert (D : dot u u = 1) by (apply unit_dot; exact Hu). unfold dot in D.
    pose proof (Rle_0_sqr (vy u)). pose proof (Rle_0_sqr (vz u)). unfold Rsqr in *. nra. }
  assert (En : exists e, nearest_surface pile (p_position p) (p_direction p) = Ok (edge, e)
               /\ nltb XRa (Fin d) e = true).
  { unfold nearest_surface. cbn [c_senses pile min_surface]. rewrite Ex, Eu. unfold su_distance.
    eexists. split; [reflexivity|].
    change (nltb XRa (Fin d) (distance (PlaneX (A := XRa) (Fin 10)) (pt x) (pt u)) = true).
    rewrite planex_distance. destruct (Reqb_spec (vx u) 0); [reflexivity|].
    destruct (Rltb_spec 0 ((10 - vx x) / vx u)) as [Pos|]; [|reflexivity].
    apply Rltb_true. assert (0 < vx u).
    { destruct (Rlt_le_dec 0 (vx u)); auto. exfalso.
      assert (H : (10 - vx x) / vx u * vx u = 10 - vx x) by (field; lra). nra. }
    apply Rcomplements.Rlt_div_r; auto. nra. }
  destruct En as (e & En & Lt).
  set (p1 := set_rng p (snd (runif two_rng (p_rng p)))).
  assert (Gc : get_cell p1 = Ok pile).
  { unfold get_cell. cbn. rewrite Ec. reflexivity. }
  cbn [transport_step]. unfold surface_step. change (num XRa) with xr in *. rewrite Ed. cbn [bind].
  fold p1. rewrite Gc. cbn [bind]. change (p_position p1) with (p_position p).
  change (p_direction p1) with (p_direction p). rewrite En. cbn [bind]. rewrite Lt.
  assert (D : drew p p1) by reflexivity.
  destruct (collide_live two_rng two_valid slab_ext [1]%N pile_world pile_multigroup fuel
    SurfaceTracking p p1 x u d L D Ex Eu Hu) as (q & Eq & St & Cq & Pq).
  exists q, (along x u d). split; [exact Eq|].
  unfold collide in Eq. apply bind_ok in Eq as (p2 & E2 & Eq).
  apply bind_ok in Eq as ([nu p3] & E3 & Eq).
  apply stream_ok in E2 as F2.
  unfold stream in E2. apply -> @noexcept_ok in E2. apply bind_ok in E2 as (eff & _ & E2).
  injection E2 as <-. apply sample_nuclide_rng in E3 as Rn. apply sample_nuclide_ok in E3 as (D3 & c & m & a & Ec3 & Em3 & Hin).
  cbn in Ec3. rewrite Ec in Ec3. injection Ec3 as <-.
  injection Em3 as <-. destruct Hin as [[= <- <-]|[]].
  unfold nu_interact in Eq. apply -> @noexcept_ok in Eq. apply bind_ok in Eq as (i & Ei & Eq).
  assert (N3 : p_type p3 = neutron /\ p_energy p3 = Group 1).
  { rewrite D3. cbn. split; [apply (gn_type _ _ Hn)|].
    destruct (gn_group _ _ Hn) as (g & Eg & [<-|[]]). exact Eg. }
  destruct N3 as [N3 N4]. unfold nu_at in Ei. rewrite N3 in Ei. injection Ei as <-.
  assert (R3 : p_rng p3 = p_rng p) by exact Rn.
  destruct pile_sigma as (S1 & S2 & S3). destruct pile_yield as [Y1 Y2].
  assert (Hg : In 1%N (groups (written_groups slab_ext pile_node))) by (rewrite pile_groups; now left).
  assert (T0 : 0 < sigma slab_ext pile_node Rcapture 1 + sigma slab_ext pile_node Rscatter 1
               + sigma slab_ext pile_node Rfission 1) by (rewrite S1, S2, S3; lra).
  destruct (C24_reaction_choice_proof two_rng slab_ext pile_node pile_data p3 1 two_valid
    pile_created pile_sensible Hg N4 T0) as (v & q' & Ev & Hv & Eq' & Hc & Hs & Hf & _).
  rewrite Eq in Eq'. injection Eq' as <-. rewrite S1, S2, S3 in Hc, Hs, Hf.
  rewrite R3 in Ev.
  assert (Sp3 : p_secondaries p3 = p_secondaries p) by (rewrite D3; reflexivity).
  destruct (p_rng p) eqn:Er; injection Ev as <-.
  - assert (F : p_event q = fission) by (apply Hf; lra).
    destruct (C27_multigroup_secondaries_proof two_rng slab_ext pile_node pile_data p3 q 1 two_valid
      pile_created pile_sensible Hg N4 T0 Eq F) as (w & new & Ew & Sq & Len & Fo & _).
    rewrite Y1 in Len. specialize (Len Y2).
    change (runif two_rng (p_rng p3)) with (Fin (if p_rng p3 then 3 / 4 else 1 / 4), p_rng p3) in Ew.
    cbn [snd] in Ew. rewrite R3 in Ew. injection Ew as <-.
    assert (L2 : length new = 2%nat).
    { assert (1 < length new < 3)%nat; [|lia]. split; apply INR_lt; cbn; lra. }
    destruct new as [|c1 [|c2 [|]]]; try discriminate.
    split; [unfold ended; rewrite F; auto|]. split; [exact Pq|]. split; [cbn; nra|].
    split; [discriminate|]. intros _. exists c1, c2. split; [congruence|].
    intros c Hc'. rewrite Forall_forall in Fo. destruct (Fo c Hc') as ([] & h & Eh & Hh & _).
    assert (Pp : p_position p3 = pt (along x u d)).
    { rewrite D3. cbn [p_position set_rng set_position set_indirect p1]. rewrite Ex, Eu.
      unfold padd, pscale, pt, along, vadd, vscale. cbn. f_equal; f_equal; lra. }
    destruct bn_drawn as (s & _ & ->). split; [reflexivity|]. split; [|split; [|split]]; auto.
    + constructor; auto.
      * exists h. rewrite pile_groups in Hh. auto.
      * exists (along x u d). congruence.
    + congruence.
  - assert (F : p_event q = capture) by (apply Hc; lra).
    split; [unfold ended; rewrite F; auto|]. split; [exact Pq|]. split; [cbn; nra|].
    split; [|discriminate]. intros _.
    rewrite (capture_secondaries two_rng slab_ext pile_node pile_data p3 q 1 two_valid
      pile_created pile_sensible Hg N4 T0 Eq F). exact Sp3.
Qed.

Definition nowhere : estimator_set XRa := mkEstSet (A := XRa) [] (Fin 1).
Definition pile_source : source XRa :=
  mkSource (A := XRa) (pt (V3 0 0 0)) (DirConstant (A := XRa) (pt (V3 1 0 0))) (Group 1) neutron.
Definition pile_driver : @driver XRa :=
  mkDriver (A := XRa) pile_world [] 1 1 nowhere 1 SurfaceTracking pile_source.
Definition pile_start : particle XRa two_rng :=
  new_particle (G := two_rng) (pt (V3 0 0 0)) (pt (V3 1 0 0)) (Group 1) neutron 1 None.

Lemma pile_first x : vx x < 10 -> first_cell pile_world (pt x) pile.
Proof.
  intros H. exists [], [outside]. split; [reflexivity|]. split; [|intros ? []]. now apply in_pile.
Qed.

Lemma pile_walk (p : particle XRa two_rng) x : p_event p = birth ->
  p_position p = pt x -> vx x < 8 -> group_neutron [1]%N p ->
  exists q y, walk SurfaceTracking pile_world (set_cell (set_perturbations [] p) pile) [q] q
    /\ p_position q = pt y /\ vx y < vx x + 2
    /\ (p_rng p = false -> p_secondaries q = p_secondaries p)
    /\ (p_rng p = true -> exists c1 c2, p_secondaries q = (p_secondaries p ++ [c1; c2])%list
         /\ forall c, In c [c1; c2] -> p_rng c = false /\ group_neutron [1]%N c
            /\ p_event c = birth /\ p_secondaries c = [] /\ p_position c = pt y).
Proof.
  intros Eb Ex Hx Hn.
  destruct (pile_step 0 (set_cell (set_perturbations [] p) pile) x eq_refl Ex Hx)
    as (q & y & Eq & En & Pq & Hy & Hf & Ht).
  { destruct Hn; constructor; auto. }
  exists q, y. split; [|split; [|split; [|split]]]; auto.
  apply (Walk_event _ _ 0 _ q); auto; [|now constructor].
  unfold ended. cbn. rewrite Eb. intros [?|[?|?]]; discriminate.
Qed.

Lemma pile_family : exists f : @family XRa two_rng,
  complete pile_driver f /\ founder f = pile_start /\ length (members f) = 3%nat
  /\ length (events (members f)) = 3%nat.
Proof.
  destruct (pile_walk pile_start (V3 0 0 0)) as (q & y & W & Pq & Hy & _ & Ht); try reflexivity.
  { cbn. lra. }
  { constructor; try reflexivity.
    - exists 1%N. split; [reflexivity|now left].
    - eexists. reflexivity.
    - exists (V3 1 0 0). split; [reflexivity|apply unit_x]. }
  destruct (Ht eq_refl) as (c1 & c2 & Sq & Hc). cbn in Hy.
  assert (K : forall c, In c [c1; c2] -> exists qc, complete pile_driver (Family c [qc] [])).
  { intros c Hin. destruct (Hc c Hin) as (Rc & Nc & Ec & Sc & Pc).
    destruct (pile_walk c y Ec Pc ltac:(lra) Nc) as (qc & yc & Wc & _ & _ & Hf & _).
    exists qc. apply (Complete pile_driver c pile [qc] qc []); auto.
    - rewrite Pc. apply pile_first. lra.
    - rewrite Hf, Sc by auto. reflexivity. }
  destruct (K c1 (or_introl eq_refl)) as (q1 & K1).
  destruct (K c2 (or_intror (or_introl eq_refl))) as (q2 & K2).
  exists (Family pile_start [q] [Family c1 [q1] []; Family c2 [q2] []]).
  split; [|split; [|split]]; try reflexivity.
  apply (Complete pile_driver pile_start pile [q] q); auto.
  - apply pile_first. cbn. lra.
Qed.
