(** The joint law of a flight and the collision that ends it: property C105. *)
From Coq Require Import Bool String List Reals ZArith NArith Lra Lia.
From Coquelicot Require Import Coquelicot.
From Verif Require Import Model.Num Model.Outcome Model.Rng Model.Xml Model.Std Model.Point
  Model.Surface Model.Types Model.Field Model.Particle Model.Multigroup Model.Thermal
  Model.Continuous Model.Material Model.World Model.Perturbation Model.Estimator Model.Transport
  Spec.Vec Spec.GeometrySpec Spec.DirectionSpec Spec.RngSpec Spec.SumSpec
  Spec.MultigroupSpec Spec.MaterialSpec Spec.TextExt Spec.TransportSpec Spec.ChanceSpec Spec.EndingSpec
  Spec.CollisionSpec Spec.BirthSpec Spec.StepSpec
  Proofs.OutcomeLib Proofs.RealLib Proofs.RngProofs Proofs.GeometryProofs Proofs.CellProofs
  Proofs.StreamProofs Proofs.StepLib Proofs.DirectionProofs Proofs.MultigroupProofs
  Proofs.MultigroupReal Proofs.MaterialProofs Proofs.TransportProofs Proofs.WellPosed
  Proofs.CrossingProofs Proofs.SampleProblem Proofs.ChanceLib Proofs.FlightLaw Proofs.HistoryEnds
  Proofs.CollisionLaw Proofs.BirthLaw.
Import ListNotations.
Local Open Scope R_scope.

Lemma within_at {G : Rng XRa} (q : particle XRa G) o v x s : unit v -> p_position q = pt (along o v s) ->
  within o v x q = if Rlt_dec s x then true else false.
Proof.
  intros U E. unfold within. rewrite E. cbn [px py pz pt].
  match goal with |- context [Rlt_dec ?a x] => replace a with s end; [reflexivity|].
  transitivity (s * dot v v).
  - apply unit_dot in U. rewrite U. ring.
  - unfold dot, vsub, along, vadd, vscale. destruct o, v. cbn. ring.
Qed.

Section Law.
  Context (X : Ext XRa) (Gs : list N) (doc : nuclide XRa -> node) (m : material XRa) (c : cell XRa)
    (w : world XRa) (p : particle XRa Given) (g : N) (o v : vec) (D d : R) (t : tracking) (fuel : nat).
  Hypotheses (M : mixture X Gs doc m) (N0 : group_neutron Gs p) (Eg : p_energy p = Group g)
    (Ec : p_cell p = Some c) (Em : c_material c = Some m) (Hd : m_density m = Fin d)
    (Eo : p_position p = pt o) (Ev : p_direction p = pt v) (H : heads w c o v D).
  Let T := mixed_sum doc m (any_reaction X g).
  Let mu := d * T.
  Let dist u := - ln (1 - u) / mu.

  Lemma step_total : 0 < d /\ 0 < T /\ forall l, mat_total m (set_rng p l) = Ok (Fin T) /\ mat_majorant m (set_rng p l) = Ok (Fin T).
  Proof.
    assert (N1 : forall l, group_neutron Gs (set_rng p l)) by (intros l; destruct N0; constructor; auto).
    pose proof (mixture_material X Gs doc m M) as MM.
    assert (E : forall l, 0 < T /\ mat_total m (set_rng p l) = Ok (Fin T) /\ mat_majorant m (set_rng p l) = Ok (Fin T)).
    { intros l. destruct (material_total Given X Gs m (set_rng p l) MM (N1 l)) as (_ & T' & HT & E1 & E2 & ET).
      replace T with T'; [auto|]. rewrite <- ET. unfold T, mixed_sum, weighted. f_equal. apply map_ext_in.
      intros [nu a] Hin. f_equal. cbn [fst]. destruct M as (_ & _ & MH).
      destruct (MH nu a Hin) as (_ & mg & Dn & C & S & W & P).
      assert (Hg' : In g (groups (written_groups X (doc nu)))) by (rewrite W; exact (mixture_group Gs g p N0 Eg)).
      destruct (C21_total_reals_proof Given X (doc nu) mg (set_rng p l) g C S Hg' Eg) as [Et _].
      assert (At : nu_at nu (set_rng p l) = Ok (IMultigroup mg)).
      { apply nu_multigroup. cbn [p_type set_rng]. rewrite (gn_type _ _ N0). exact Dn. }
      unfold total_at, nu_total. cbn [fst]. rewrite At. cbn [bind]. rewrite Et. reflexivity. }
    destruct M as ((d' & Ed & Pd) & _). rewrite Hd in Ed. injection Ed as <-.
    split; [exact Pd|]. split; [exact (proj1 (E []))|]. intros l. exact (proj2 (E l)).
  Qed.
  Lemma mu_pos : 0 < mu.
  Proof. destruct step_total as (A & B & _). unfold mu. nra. Qed.

  Lemma step_material l : get_material (set_rng p l) = Ok m.
  Proof. unfold get_material, get_cell. cbn [p_cell set_rng]. rewrite Ec. cbn [bind]. now rewrite Em. Qed.
  Lemma step_density l : collision_density t (set_rng p l) = Ok (Fin T).
  Proof.
    unfold collision_density. rewrite step_material. cbn [bind].
    destruct step_total as (_ & _ & E). destruct (E l) as [E1 E2]. destruct t; [rewrite E1|rewrite E2]; reflexivity.
  Qed.

  Lemma step_distance u l : 0 < u < 1 -> sample_distance t (set_rng p (u :: l)) = Ok (Fin (dist u), set_rng p l).
  Proof.
    intros Hu. unfold sample_distance. rewrite step_material. cbn [bind]. rewrite step_density. cbn [bind]. rewrite Hd.
    change (nmul XRa (Fin d) (Fin T)) with (Fin mu). pose proof mu_pos.
    pose proof (exponential_fin Given (p_rng (set_rng p (u :: l))) u mu) as E.
    cbn [p_rng set_rng] in E |- *. rewrite E; [reflexivity| |lra|lra]. cbn. now rewrite inside_is.
  Qed.

  (** Where a collision is. *)
  Lemma collide_place s l q : collide (A := XRa) fuel t (Fin s) (set_rng p l) = Ok q ->
    p_position q = pt (along o v s).
  Proof.
    assert (St : stream t (set_rng p l) (Fin s)
      = Ok (set_position (set_indirect (set_rng p l) (effects m T s (set_rng p l))) (pt (along o v (0 + s))))).
    { apply (stream_is t m T s o v 0).
      - apply step_material.
      - apply step_density.
      - cbn [p_position set_rng]. rewrite Eo. f_equal. destruct o; unfold along, vadd, vscale; cbn; f_equal; ring.
      - exact Ev. }
    unfold collide. change (num XRa) with xr in *. rewrite St. cbn [bind]. intros Hq. oinv Hq.
    destruct x as [nu q2]. apply sample_nuclide_ok in E as [Dr _]. apply nu_interact_place in Hq as [[Po _ _ _ _ _] _].
    rewrite Po, Dr. cbn [p_position set_rng set_position]. now rewrite Rplus_0_l.
  Qed.

  Lemma crossing_ok s l : exists q, cross_surface (A := XRa) t w s (Fin D) (set_rng p l) = Ok q /\ crossed q = true
    /\ exists k, 0 < k /\ p_position q = pt (along o v (D + k))
       /\ exists c', nudge (A := XRa) = Fin k /\ find_cell w (pt (along o v (D + k))) = Ok c'
          /\ p_event q = match c_material c' with Some _ => surface_cross | None => leak end.
  Proof.
    destruct (hd_behind _ _ _ _ _ H) as (k & c' & Ek & Fc). destruct nudge_fin as (k' & Ek' & Hk).
    rewrite Ek in Ek'. injection Ek' as <-.
    assert (St : stream t (set_rng p l) (Fin (D + k))
      = Ok (set_position (set_indirect (set_rng p l) (effects m T (D + k) (set_rng p l))) (pt (along o v (0 + (D + k)))))).
    { apply (stream_is t m T (D + k) o v 0).
      - apply step_material.
      - apply step_density.
      - cbn [p_position set_rng]. rewrite Eo. f_equal. destruct o; unfold along, vadd, vscale; cbn; f_equal; ring.
      - exact Ev. }
    unfold cross_surface. change (num XRa) with xr in *. rewrite Ek.
    change (nadd XRa (Fin D) (Fin k)) with (Fin (D + k)). rewrite St. cbn [bind p_position set_position].
    rewrite Rplus_0_l, Fc. cbn [bind]. eexists. split; [reflexivity|]. split.
    - unfold crossed. cbn. now destruct (c_material c').
    - exists k. split; [exact Hk|]. split; [reflexivity|]. exists c'. auto.
  Qed.

  (** A step is a collision before the surface, or the crossing of it. *)
  Lemma step_cases u y l : 0 < u < 1 -> 0 < y < 1 ->
    (dist u < D -> transport_step (A := XRa) t fuel w (set_rng p (u :: y :: l))
       = collide (A := XRa) fuel t (Fin (dist u)) (set_rng p (match t with SurfaceTracking => y :: l | CellDeltaTracking => l end)))
    /\ (D < dist u -> exists s, transport_step (A := XRa) t fuel w (set_rng p (u :: y :: l))
       = cross_surface (A := XRa) t w s (Fin D) (set_rng p (y :: l))).
  Proof.
    intros Hu Hy. destruct (hd_ahead _ _ _ _ _ H) as [PD [s Es]].
    pose proof (step_distance u (y :: l) Hu) as Ed.
    assert (Gc : get_cell (set_rng p (y :: l)) = Ok c).
    { unfold get_cell. cbn [p_cell set_rng]. now rewrite Ec. }
    destruct step_total as (_ & PT & Et). destruct (Et (y :: l)) as [T1 T2].
    pose proof (step_material (y :: l)) as Gm. clear Et.
    destruct t; cbn [transport_step]; [unfold surface_step|unfold delta_step];
      rewrite Ed; cbn [bind]; rewrite Gc; cbn [bind p_position p_direction set_rng];
      rewrite Eo, Ev; change (num XRa) with xr in *; rewrite Es; cbn [bind].
    - change (nltb XRa (Fin (dist u)) (Fin D)) with (Rltb (dist u) D). split; intros L.
      + rewrite Rltb_true by auto. reflexivity.
      + exists s. rewrite Rltb_false by lra. reflexivity.
    - change (nltb XRa (Fin D) (Fin (dist u))) with (Rltb D (dist u)). split; intros L.
      + rewrite Rltb_false by lra. change (num XRa) with xr in *. rewrite Gm. cbn [bind].
        rewrite T1, T2. cbn [bind].
        assert (Dv : ndiv XRa (Fin T) (Fin T) = Fin 1).
        { cbn. rewrite Reqb_false by lra. f_equal. field. lra. }
        rewrite Dv.
        change (bernoulli Given (Fin 1) (p_rng (set_rng p (y :: l)))) with (Rltb (inside y) 1, l).
        rewrite (inside_is y Hy), Rltb_true by lra. reflexivity.
      + exists s. rewrite Rltb_true by auto. reflexivity.
  Qed.

  (** The law of collisions, given that of what they come to. *)
  Lemma step_chance k more test y x : 0 <= x <= D ->
    (forall s more, chance (k + more) (fun l => comes_to (collide (A := XRa) fuel t (Fin s) (set_rng p l)) test) y) ->
    chance (2 + (k + more)) (fun l => comes_to (transport_step (A := XRa) t fuel w (set_rng p l)) (fun q => within o v x q && test q))
      ((1 - exp (- (mu * x))) * y).
  Proof.
    intros Hx Hc. pose proof mu_pos as Pm. destruct (exp_small mu x Pm ltac:(lra)) as [B1 B2].
    assert (Yes : forall u y l, 0 < u < 1 -> 0 < y < 1 -> dist u < x ->
      comes_to (transport_step (A := XRa) t fuel w (set_rng p (u :: y :: l))) (fun q => within o v x q && test q)
      = comes_to (collide (A := XRa) fuel t (Fin (dist u)) (set_rng p (match t with SurfaceTracking => y :: l | CellDeltaTracking => l end))) test).
    { intros u y0 l Hu Hy L. destruct (step_cases u y0 l Hu Hy) as [C _]. rewrite C by lra.
      destruct (collide _ _ _ _) as [q| | | |] eqn:E; auto. cbn [comes_to].
      rewrite (within_at q o v x (dist u) (hd_unit _ _ _ _ _ H) (collide_place _ _ _ E)).
      destruct (Rlt_dec (dist u) x); [reflexivity|lra]. }
    assert (No : forall u y l, 0 < u < 1 -> 0 < y < 1 -> x <= dist u -> dist u <> D ->
      comes_to (transport_step (A := XRa) t fuel w (set_rng p (u :: y :: l))) (fun q => within o v x q && test q) = false).
    { intros u y0 l Hu Hy L Ne. destruct (step_cases u y0 l Hu Hy) as [C1 C2].
      destruct (Rlt_dec (dist u) D) as [I|I].
      - rewrite C1 by auto. destruct (collide _ _ _ _) as [q| | | |] eqn:E; auto. cbn [comes_to].
        rewrite (within_at q o v x (dist u) (hd_unit _ _ _ _ _ H) (collide_place _ _ _ E)).
        destruct (Rlt_dec (dist u) x); [lra|reflexivity].
      - destruct C2 as [s C2]; [lra|]. rewrite C2. destruct (crossing_ok s (y0 :: l)) as (q & Eq & _ & k0 & Hk & Po & _).
        rewrite Eq. cbn [comes_to].
        rewrite (within_at q o v x (D + k0) (hd_unit _ _ _ _ _ H) Po).
        destruct (Rlt_dec (D + k0) x); [lra|reflexivity]. }
    (* the integral *)
    set (us := 1 - exp (- (mu * x))).
    exists (fun u => if Rlt_dec u us then y else 0), [1 - exp (- (mu * D))]. split.
    - intros u Hu Nu.
      assert (Ne : dist u <> D).
      { intros Q. apply Nu. left. rewrite <- Q. unfold dist.
        replace (mu * (- ln (1 - u) / mu)) with (- ln (1 - u)) by (field; lra). rewrite Ropp_involutive, exp_ln; lra. }
      destruct (Rlt_dec u us) as [L|L].
      + apply (draw_before mu x u Pm ltac:(lra)) in L. fold (dist u) in L.
        assert (Ch : chance (S k + more) (fun l => comes_to (transport_step (A := XRa) t fuel w (set_rng p (u :: l)))
                  (fun q => within o v x q && test q)) y); [|exact Ch].
        destruct t eqn:Et.
        * (* the first of the numbers belongs to the collision: one more is to spare *)
          pose proof (Hc (dist u) (S more)) as Q. replace (k + S more)%nat with (S (k + more)) in Q by lia.
          cbn [Nat.add]. destruct Q as (f & but & Hf & If). exists f, but. split; [|exact If].
          intros y0 Hy Ny. eapply chance_ext; [|exact (Hf y0 Hy Ny)]. intros l. cbv beta. now rewrite Yes.
        * apply chance_any. intros y0 Hy. eapply chance_ext; [|exact (Hc (dist u) more)].
          intros l. cbv beta. now rewrite Yes.
      + assert (L' : x <= dist u).
        { destruct (Rle_dec x (dist u)); auto. exfalso. apply L. apply (draw_before mu x u Pm ltac:(lra)). fold (dist u). lra. }
        apply (chance_any (k + more)). intros y0 Hy. apply chance_never. intros l. now apply No.
    - replace (us * y) with (us * y + (1 - us) * 0) by ring.
      apply integral_chasles with us.
      + apply (integral_ext (fun _ => y)); [unfold us; lra| |apply integral_is; ring].
        intros u Hu. destruct (Rlt_dec u us); [reflexivity|lra].
      + apply (integral_ext (fun _ => 0)); [unfold us; lra| |apply integral_is; ring].
        intros u Hu. destruct (Rlt_dec u us); [lra|reflexivity].
  Qed.

  (** And of crossing the surface. *)
  Lemma step_crossing more :
    chance (2 + more) (fun l => comes_to (transport_step (A := XRa) t fuel w (set_rng p l)) (fun q => negb (within o v D q) && crossed q)) (exp (- (mu * D))).
  Proof.
    pose proof mu_pos as Pm. destruct (hd_ahead _ _ _ _ _ H) as [PD _]. destruct (exp_small mu D Pm ltac:(lra)) as [B1 B2].
    set (us := 1 - exp (- (mu * D))).
    exists (fun u => if Rlt_dec u us then 0 else 1), [us]. split.
    - intros u Hu Nu. apply (chance_any more). intros y Hy.
      assert (u <> us) by (intros ->; apply Nu; now left).
      destruct (Rlt_dec u us) as [L|L].
      + apply (draw_before mu D u Pm ltac:(lra)) in L. fold (dist u) in L.
        apply chance_never. intros l. destruct (step_cases u y l Hu Hy) as [C _]. rewrite C by auto.
        destruct (collide _ _ _ _) as [q| | | |] eqn:E; auto. cbn [comes_to].
        rewrite (within_at q o v D (dist u) (hd_unit _ _ _ _ _ H) (collide_place _ _ _ E)).
        destruct (Rlt_dec (dist u) D); [reflexivity|lra].
      + apply (chance_sure more _ true). intros l. destruct (step_cases u y l Hu Hy) as [_ C].
        destruct C as [s C]. { apply (draw_after mu D u Pm ltac:(lra)). fold us. lra. }
        rewrite C. destruct (crossing_ok s (y :: l)) as (q & Eq & Cr & k & Hk & Po & _).
        rewrite Eq. cbn [comes_to]. rewrite (within_at q o v D (D + k) (hd_unit _ _ _ _ _ H) Po), Cr.
        destruct (Rlt_dec (D + k) D); [lra|reflexivity].
    - replace (exp (- (mu * D))) with (us * 0 + (1 - us) * 1) by (unfold us; ring).
      apply integral_chasles with us.
      + apply (integral_ext (fun _ => 0)); [unfold us; lra| |apply integral_is; ring].
        intros u Hu. destruct (Rlt_dec u us); [reflexivity|lra].
      + apply (integral_ext (fun _ => 1)); [unfold us; lra| |apply integral_is; ring].
        intros u Hu. destruct (Rlt_dec u us); [lra|reflexivity].
  Qed.
End Law.

(** How far a particle gets, and what becomes of it there. *)
Lemma C105_step_proof :
  forall (X : Ext XRa) (Gs : list N) (doc : nuclide XRa -> node) (m : material XRa) (c : cell XRa)
    (w : world XRa) (p : particle XRa Given) (g : N) (o v : vec) (D d : R) (t : tracking) (fuel more : nat),
  mixture X Gs doc m -> group_neutron Gs p -> p_energy p = Group g ->
  p_cell p = Some c -> c_material c = Some m -> m_density m = Fin d ->
  p_position p = pt o -> p_direction p = pt v -> heads w c o v D ->
  let all := mixed_sum doc m (any_reaction X g) in
  let stepped l := transport_step (A := XRa) t fuel w (set_rng p l) in
  let reached x := 1 - exp (- (d * all * x)) in
  (* past the surface *)
  chance (2 + more) (fun l => comes_to (stepped l) (fun q => negb (within o v D q) && crossed q))
    (exp (- (d * all * D)))
  (* capture before [x] *)
  /\ (forall x, 0 <= x <= D ->
       chance (4 + more) (fun l => comes_to (stepped l) (fun q => within o v x q && event_eqb (p_event q) capture))
         (reached x * (mixed_sum doc m (fun n => sigma X n Rcapture g) / all)))
  (* scattering before [x] into group [h], with a cosine to the x axis below [y] *)
  /\ (forall x h y, 0 <= x <= D -> In h Gs -> -1 <= y <= 1 ->
       chance (6 + more)
         (fun l => comes_to (stepped l)
            (fun q => within o v x q && (event_eqb (p_event q) scatter && in_group h q && cosine_below y q)))
         (reached x * (mixed_sum doc m (transfer X g h) / all * ((1 + y) / 2))))
  (* fission before [x] with the neutrons [ws] *)
  /\ (forall x ws, 0 <= x <= D ->
       (forall nu a, In (nu, a) (m_afracs m) -> fission_node (doc nu) <> None ->
          0 < column_sum X (doc nu) (chi_node (doc nu)) g) ->
       List.Forall (fun w => In (fst w) Gs /\ -1 <= snd w <= 1) ws ->
       chance (5 + (4 * length ws + more))
         (fun l => comes_to (stepped l)
            (fun q => within o v x q
                      && (event_eqb (p_event q) fission
                          && as_wanted ws (skipn (length (p_secondaries p)) (p_secondaries q)))))
         (reached x * (mixed_sum doc m (fun n => multiplying X g (length ws) n * all_emitted X g ws n) / all))).
Proof.
  intros X Gs doc m c w p g o v D d t fuel more M N0 Eg Ec Em Hd Eo Ev H all stepped reached.
  split; [exact (step_crossing X Gs doc m c w p g o v D d t fuel M N0 Eg Ec Em Hd Eo Ev H more)|].
  split; [|split].
  - intros x Hx.
    refine (step_chance X Gs doc m c w p g o v D d t fuel M N0 Eg Ec Em Hd Eo Ev H 2 more _ _ x Hx _).
    intros s more'. exact (proj1 (C102_collision_proof X Gs doc m c p g fuel t s more' M N0 Eg Ec Em)).
  - intros x h y Hx Hh Hy.
    refine (step_chance X Gs doc m c w p g o v D d t fuel M N0 Eg Ec Em Hd Eo Ev H 4 more _ _ x Hx _).
    intros s more'. exact (proj1 (proj2 (C102_collision_proof X Gs doc m c p g fuel t s more' M N0 Eg Ec Em)) h y Hh Hy).
  - intros x ws Hx Hchi F.
    refine (step_chance X Gs doc m c w p g o v D d t fuel M N0 Eg Ec Em Hd Eo Ev H (3 + 4 * length ws) more _ _ x Hx _).
    intros s more'. rewrite <- Nat.add_assoc.
    exact (C103_births_proof X Gs doc m c p g fuel t s ws more' M N0 Eg Ec Em Hchi F).
Qed.

(** Fuel in a moderator, ten away from the vacuum. *)
Definition blend_world : world XRa :=
  mkWorld [edge] [fuel_nuclide; moderator_nuclide] [blend] warmth [blend_cell; outside].

Lemma C105_example :
  mixture slab_ext [1; 2]%N blend_doc blend /\ group_neutron [1; 2]%N blend_neutron
  /\ p_energy blend_neutron = Group 1 /\ p_cell blend_neutron = Some blend_cell
  /\ c_material blend_cell = Some blend /\ m_density blend = Fin 1
  /\ p_position blend_neutron = pt (V3 0 0 0) /\ p_direction blend_neutron = pt (V3 1 0 0)
  /\ heads blend_world blend_cell (V3 0 0 0) (V3 1 0 0) 10
  /\ (forall nu a, In (nu, a) (m_afracs blend) -> fission_node (blend_doc nu) <> None ->
        0 < column_sum slab_ext (blend_doc nu) (chi_node (blend_doc nu)) 1)
  /\ mixed_sum blend_doc blend (any_reaction slab_ext 1) = 3
  /\ mixed_sum blend_doc blend (fun n => sigma slab_ext n Rcapture 1) = 1 / 4
  /\ mixed_sum blend_doc blend (transfer slab_ext 1 2) = 1.
Proof.
  destruct C102_example as (E1 & E2 & E3 & E4 & E5 & E6 & E7 & E8 & E9 & _).
  do 5 (split; [assumption|]). do 3 (split; [reflexivity|]). split; [|auto].
  constructor.
  - apply unit_x.
  - split; [lra|]. exists edge. unfold nearest_surface. cbn [c_senses blend_cell min_surface]. do 2 f_equal.
    unfold su_distance. etransitivity; [apply (planex_distance 10 (V3 0 0 0) (V3 1 0 0))|].
    cbn [vx]. decide_reals. f_equal. lra.
  - destruct nudge_fin as (k & Ek & Hk). exists k, outside. split; [exact Ek|].
    replace (along (V3 0 0 0) (V3 1 0 0) (10 + k)) with (V3 (10 + k) 0 0)
      by (unfold along, vadd, vscale; cbn; f_equal; ring).
    unfold find_cell. cbn. decide_reals. reflexivity.
Qed.
