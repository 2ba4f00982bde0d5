(** The walk of a neutron in a medium that only absorbs: property C106. *)
From Coq Require Import Bool String List Reals ZArith NArith Lra Lia.
From Coquelicot Require Import Coquelicot.
From Verif Require Import Model.Num Model.Outcome Model.Rng Model.Xml Model.Std Model.Point
  Model.Surface Model.Types Model.Field Model.Particle Model.Multigroup Model.Thermal
  Model.Continuous Model.Material Model.World Model.Perturbation Model.Estimator Model.Transport
  Spec.Vec Spec.GeometrySpec Spec.DirectionSpec Spec.RngSpec Spec.SumSpec
  Spec.MultigroupSpec Spec.MaterialSpec Spec.TextExt Spec.TransportSpec Spec.ChanceSpec Spec.EndingSpec
  Spec.CollisionSpec Spec.BirthSpec Spec.StepSpec Spec.AbsorbSpec
  Proofs.OutcomeLib Proofs.RealLib Proofs.RngProofs Proofs.GeometryProofs Proofs.CellProofs
  Proofs.StreamProofs Proofs.StepLib Proofs.DirectionProofs Proofs.MultigroupProofs
  Proofs.MultigroupReal Proofs.MaterialProofs Proofs.TransportProofs Proofs.WellPosed
  Proofs.CrossingProofs Proofs.SampleProblem Proofs.ChanceLib Proofs.FlightLaw Proofs.HistoryEnds
  Proofs.CollisionLaw Proofs.BirthLaw Proofs.StepLaw.
Import ListNotations.
Local Open Scope R_scope.

(** The first number may miss one value, the second none. *)
Lemma chance_two n (E F : list R -> bool) us x :
  (forall u y l, 0 < u < 1 -> 0 < y < 1 -> u <> us -> E (u :: y :: l) = F (u :: y :: l)) ->
  chance (2 + n) E x -> chance (2 + n) F x.
Proof.
  intros EF (g & but & Hg & I). exists g, (us :: but). split; [|exact I].
  intros u Hu Nu. destruct (Hg u Hu) as (h & but' & Hh & I'). { intros K. apply Nu. now right. }
  exists h, but'. split; [|exact I']. intros y Hy Ny. eapply chance_ext; [|exact (Hh y Hy Ny)].
  intros l. cbv beta. apply EF; auto. intros ->. apply Nu. now left.
Qed.

Section Absorb.
  Context (X : Ext XRa) (Gs : list N) (doc : nuclide XRa -> node) (m : material XRa) (c : cell XRa)
    (w : world XRa) (p : particle XRa Given) (g : N) (o v : vec) (D d : R) (t : tracking) (fuel : nat).
  Hypotheses (M : mixture X Gs doc m) (N0 : group_neutron Gs p) (Eg : p_energy p = Group g)
    (Ec : p_cell p = Some c) (Em : c_material c = Some m) (Hd : m_density m = Fin d)
    (Eo : p_position p = pt o) (Ev : p_direction p = pt v) (H : meets_void w c o v D)
    (Ab : absorbs X doc m g).
  Let V : valid_rng Given := open_valid _ given_open.

  (** Every collision captures. *)
  Lemma absorbed s l : exists q, collide (A := XRa) fuel t (Fin s) (set_rng p l) = Ok q /\ p_event q = capture.
  Proof.
    destruct (collide_is X Gs doc m c p M N0 Ec Em fuel t s) as (q & Nq & Qe & Qc & _ & Cq).
    rewrite Cq. rewrite <- Qe in Eg. rewrite <- Qc in Ec.
    pose proof (mixture_group Gs g q Nq Eg) as Hg.
    assert (N1 : group_neutron Gs (set_rng q l)) by (destruct Nq; constructor; auto).
    destruct (material_total Given X Gs m (set_rng q l) (mixture_material X Gs doc m M) N1) as (Fo & T & HT & _ & _ & ET).
    destruct (sample_nuclide_fin Given (set_rng q l) c m V Ec Em Fo) as (u & nu & pre & a & post & _ & _ & Es & El & _).
    { rewrite ET. exact HT. }
    unfold react. rewrite Es. cbn [bind].
    assert (Hin : In (nu, a) (m_afracs m)) by (rewrite El; apply in_elt).
    destruct M as (_ & _ & MH). destruct (MH nu a Hin) as (_ & mg & Dn & C & S & W & P).
    destruct (Ab nu a Hin) as [A1 A2].
    set (q1 := set_rng (set_rng q l) (snd (runif Given (p_rng (set_rng q l))))).
    assert (At : nu_at nu q1 = Ok (IMultigroup mg)).
    { apply nu_multigroup. cbn [p_type set_rng q1]. rewrite (gn_type _ _ Nq). exact Dn. }
    unfold nu_interact. rewrite At. cbn [bind].
    destruct (reaction_selected Given X (doc nu) mg q1 g V C S) as (u' & r & _ & _ & Ei & _ & Pr & _).
    { rewrite W. exact Hg. }
    { exact Eg. }
    { exact (P g Hg). }
    rewrite Ei. destruct r; [|lra|lra]. eexists. split; reflexivity.
  Qed.

  Context {E : Type} (score : E -> particle XRa Given -> outcome E) (e : E).
  Hypotheses (Sc : forall e' q, exists e'', score e' q = Ok e'') (Al : is_alive p = true).

  Let dist u := - ln (1 - u) / (d * mixed_sum doc m (any_reaction X g)).

  (** So the walk is one step. *)
  Lemma one_step u y l : 0 < u < 1 -> 0 < y < 1 -> dist u <> D -> exists q,
    transport_step (A := XRa) t fuel w (set_rng p (u :: y :: l)) = Ok q
    /\ last_state (transport_loop (A := XRa) score t (S fuel) w e (set_rng p (u :: y :: l))) = Ok q
    /\ (dist u < D /\ p_event q = capture /\ within o v D q = true \/ D < dist u /\ p_event q = leak /\ within o v D q = false).
  Proof.
    intros Hu Hy Ne. destruct H as (_ & Hh & Hv).
    destruct (step_cases X Gs doc m c w p g o v D d t fuel M N0 Eg Ec Em Hd Eo Ev Hh u y l Hu Hy) as [C1 C2].
    assert (Q : exists q, transport_step (A := XRa) t fuel w (set_rng p (u :: y :: l)) = Ok q
      /\ (dist u < D /\ p_event q = capture /\ within o v D q = true \/ D < dist u /\ p_event q = leak /\ within o v D q = false)).
    { destruct (Rlt_dec (dist u) D) as [L|L].
      - fold (dist u) in C1. rewrite (C1 L).
        match goal with |- context [collide fuel t ?s (set_rng p ?l')] => destruct (absorbed (dist u) l') as (q & Eq & Qe) end.
        exists q. split; [exact Eq|]. left. split; [exact L|]. split; [exact Qe|].
        rewrite (within_at q o v D (dist u) (hd_unit _ _ _ _ _ Hh)
          (collide_place X Gs doc m c w p g o v D d t fuel M N0 Eg Ec Em Hd Eo Ev Hh _ _ _ Eq)).
        destruct (Rlt_dec (dist u) D); [reflexivity|lra].
      - assert (L' : D < dist u) by lra. destruct (C2 L') as [s Es]. rewrite Es.
        destruct (crossing_ok X Gs doc m c w p g o v D d t M N0 Eg Ec Em Hd Eo Ev Hh s (y :: l))
          as (q & Eq & Cr & k & Hk & Po & c' & Ek & Fc & Qe).
        exists q. split; [exact Eq|]. right. split; [exact L'|].
        rewrite (within_at q o v D (D + k) (hd_unit _ _ _ _ _ Hh) Po).
        split; [|destruct (Rlt_dec (D + k) D); [lra|reflexivity]].
        now rewrite Qe, (Hv k c' Ek Fc). }
    destruct Q as (q & Eq & R). exists q. split; [exact Eq|]. split; [|exact R].
    cbn [transport_loop]. change (is_alive (set_rng p (u :: y :: l))) with (is_alive p). rewrite Al.
    change (num XRa) with xr in *. rewrite Eq. cbn [bind]. destruct (Sc e q) as [e1 E1]. rewrite E1. cbn [bind].
    assert (Dead : is_alive q = false) by (unfold is_alive; destruct R as [(_ & -> & _)|(_ & -> & _)]; reflexivity).
    destruct fuel; cbn [transport_loop]; rewrite Dead; reflexivity.
  Qed.
End Absorb.

(** A walk in a medium that only absorbs. *)
Lemma C106_absorber_proof :
  forall (X : Ext XRa) (Gs : list N) (doc : nuclide XRa -> node) (m : material XRa) (c : cell XRa)
    (w : world XRa) (p : particle XRa Given) (g : N) (o v : vec) (D d : R) (t : tracking) (fuel more : nat)
    (E : Type) (score : E -> particle XRa Given -> outcome E) (e : E),
  mixture X Gs doc m -> absorbs X doc m g -> group_neutron Gs p -> p_energy p = Group g -> is_alive p = true ->
  c_material c = Some m -> m_density m = Fin d ->
  p_position p = pt o -> p_direction p = pt v -> meets_void w c o v D ->
  (forall e' q, exists e'', score e' q = Ok e'') ->
  let S := d * mixed_sum doc m (fun n => sigma X n Rcapture g) in
  let ended l := last_state (transport (A := XRa) score t (1 + fuel) w e (set_rng p l)) in
  (* it leaks *)
  chance (2 + more) (fun l => comes_to (ended l) (fun q => event_eqb (p_event q) leak)) (exp (- (S * D)))
  (* it is captured before [x] *)
  /\ (forall x, 0 <= x <= D ->
       chance (4 + more) (fun l => comes_to (ended l) (fun q => within o v x q && event_eqb (p_event q) capture))
         (1 - exp (- (S * x)))).
Proof.
  intros X Gs doc m c w p0 g o v D d t fuel more E score e M Ab N0 Eg Al Em Hd Eo Ev H Sc S ended.
  set (p := set_cell p0 c).
  assert (N1 : group_neutron Gs p) by (destruct N0; constructor; auto).
  assert (Cp : p_cell p = Some c) by reflexivity.
  assert (Ed : forall l test, comes_to (ended l) test
    = comes_to (last_state (transport_loop (A := XRa) score t (Datatypes.S fuel) w e (set_rng p l))) test).
  { intros l test. unfold ended, transport. cbn [p_position set_rng]. change (num XRa) with xr in *. rewrite Eo, (proj1 H).
    cbn [bind]. change (set_cell (set_rng p0 l) c) with (set_rng p l). unfold last_state.
    change (1 + fuel)%nat with (Datatypes.S fuel). now destruct (transport_loop score t (Datatypes.S fuel) w e (set_rng p l)). }
  assert (All : mixed_sum doc m (fun n => sigma X n Rcapture g) = mixed_sum doc m (any_reaction X g)).
  { apply mixed_ext. intros nu a Hin. destruct (Ab nu a Hin) as [A1 A2]. unfold any_reaction. rewrite A1, A2. ring. }
  destruct (step_total X Gs doc m p g d M N1 Eg Hd) as (Pd & PT & _).
  destruct (C105_step_proof X Gs doc m c w p g o v D d t fuel more M N1 Eg Cp Em Hd Eo Ev (proj1 (proj2 H)))
    as (L1 & L2 & _).
  unfold S. rewrite All.
  assert (Off : forall u, 0 < u < 1 -> u <> 1 - exp (- (d * mixed_sum doc m (any_reaction X g) * D)) ->
    - ln (1 - u) / (d * mixed_sum doc m (any_reaction X g)) <> D).
  { intros u Hu Ne Q. apply Ne. rewrite <- Q.
    replace (d * mixed_sum doc m (any_reaction X g) * (- ln (1 - u) / (d * mixed_sum doc m (any_reaction X g))))
      with (- ln (1 - u)) by (field; split; nra). rewrite Ropp_involutive, exp_ln; lra. }
  split.
  - refine (chance_two more _ _ _ _ _ L1). intros u y l Hu Hy Ne. cbv beta. rewrite Ed.
    destruct (one_step X Gs doc m c w p g o v D d t fuel M N1 Eg Cp Em Hd Eo Ev H Ab score e Sc Al u y l Hu Hy (Off u Hu Ne))
      as (q & E1 & E2 & R).
    rewrite E1, E2. cbn [comes_to]. unfold crossed.
    destruct R as [(_ & -> & ->)|(_ & -> & ->)]; reflexivity.
  - intros x Hx. replace (1 - exp (- (d * mixed_sum doc m (any_reaction X g) * x)))
      with ((1 - exp (- (d * mixed_sum doc m (any_reaction X g) * x)))
            * (mixed_sum doc m (fun n => sigma X n Rcapture g) / mixed_sum doc m (any_reaction X g)))
      by (rewrite All; field; lra).
    refine (chance_two (2 + more) _ _ _ _ _ (L2 x Hx)). intros u y l Hu Hy Ne. cbv beta. rewrite Ed.
    destruct (one_step X Gs doc m c w p g o v D d t fuel M N1 Eg Cp Em Hd Eo Ev H Ab score e Sc Al u y l Hu Hy (Off u Hu Ne))
      as (q & E1 & E2 & R).
    rewrite E1, E2. reflexivity.
Qed.

(** The slab of the sample problem. *)
Definition slab_neutron : particle XRa Given :=
  new_particle (G := Given) (pt (V3 0 0 0)) (pt (V3 1 0 0)) (Group 1) neutron 1 None.

Lemma C106_example :
  mixture slab_ext [1]%N (fun _ => slab_node) slab_material /\ absorbs slab_ext (fun _ => slab_node) slab_material 1
  /\ group_neutron [1]%N slab_neutron /\ p_energy slab_neutron = Group 1 /\ is_alive slab_neutron = true
  /\ c_material slab = Some slab_material /\ m_density slab_material = Fin 1
  /\ p_position slab_neutron = pt (V3 0 0 0) /\ p_direction slab_neutron = pt (V3 1 0 0)
  /\ meets_void SampleProblem.slab_world slab (V3 0 0 0) (V3 1 0 0) 10
  /\ mixed_sum (fun _ => slab_node) slab_material (fun n => sigma slab_ext n Rcapture 1) = 1.
Proof.
  destruct SampleProblem.slab_sigma as (S1 & S2 & S3).
  split; [|split; [|split; [|do 6 (split; [reflexivity|]); split]]].
  - split; [exists 1; split; [reflexivity|lra]|]. split; [discriminate|].
    intros nu a [[= <- <-]|[]]. split; [exists 1; split; [reflexivity|lra]|].
    exists slab_data. split; [reflexivity|]. split; [exact slab_created|].
    split; [exact slab_sensible|]. split; [exact slab_groups|].
    intros g [<-|[]]. rewrite S1, S2, S3. lra.
  - intros nu a _. auto.
  - constructor.
    + reflexivity.
    + exists 1%N. split; [reflexivity|now left].
    + exists (V3 0 0 0). reflexivity.
    + exists (V3 1 0 0). split; [reflexivity|apply unit_x].
  - destruct nudge_fin as (k & Ek & Hk).
    assert (Fo : find_cell SampleProblem.slab_world (pt (along (V3 0 0 0) (V3 1 0 0) (10 + k))) = Ok outside).
    { replace (along (V3 0 0 0) (V3 1 0 0) (10 + k)) with (V3 (10 + k) 0 0)
        by (unfold along, vadd, vscale; cbn; f_equal; ring).
      unfold find_cell. cbn. decide_reals. reflexivity. }
    split; [unfold find_cell; cbn; decide_reals; reflexivity|]. split.
    + constructor.
      * apply unit_x.
      * split; [lra|]. exists edge. unfold nearest_surface. cbn [c_senses slab min_surface]. do 2 f_equal.
        unfold su_distance. etransitivity; [apply (planex_distance 10 (V3 0 0 0) (V3 1 0 0))|].
        cbn [vx]. decide_reals. f_equal. lra.
      * exists k, outside. auto.
    + intros k' c' Ek' Fc. rewrite Ek in Ek'. injection Ek' as <-. rewrite Fo in Fc. injection Fc as <-. reflexivity.
  - unfold mixed_sum, weighted. cbn [m_afracs slab_material map Rsum fst]. rewrite S1. unfold fraction. cbn. ring.
Qed.
