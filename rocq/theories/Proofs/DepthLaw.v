(** The depth at which a neutron is captured in layers of absorbers: property C111. *)
From Coq Require Import Bool String List Reals ZArith NArith Lra Lia.
From Coquelicot Require Import Coquelicot.
From Verif Require Import Model.Num Model.Outcome Model.Rng Model.Xml Model.Std Model.Point
  Model.Surface Model.Types Model.Field Model.Particle Model.Multigroup Model.Thermal
  Model.Continuous Model.Material Model.World Model.Perturbation Model.Estimator Model.Transport
  Spec.Vec Spec.GeometrySpec Spec.DirectionSpec Spec.RngSpec Spec.SumSpec
  Spec.MultigroupSpec Spec.MaterialSpec Spec.TextExt Spec.TransportSpec Spec.ChanceSpec Spec.EndingSpec
  Spec.CollisionSpec Spec.BirthSpec Spec.StepSpec Spec.AbsorbSpec Spec.LayerSpec Spec.DepthSpec
  Proofs.OutcomeLib Proofs.RealLib Proofs.RngProofs Proofs.GeometryProofs Proofs.CellProofs
  Proofs.StreamProofs Proofs.StepLib Proofs.DirectionProofs Proofs.MultigroupProofs
  Proofs.MultigroupReal Proofs.MaterialProofs Proofs.TransportProofs Proofs.WellPosed
  Proofs.CrossingProofs Proofs.ChanceLib Proofs.FlightLaw Proofs.HistoryEnds
  Proofs.CollisionLaw Proofs.BirthLaw Proofs.StepLaw Proofs.AbsorbLaw Proofs.LayerLaw Proofs.SampleProblem.
Import ListNotations.
Local Open Scope R_scope.

(** Every collision captures, in the cell where it is. *)
Lemma absorbed_there X Gs doc m c (p : particle XRa Given) g t fuel s l :
  mixture X Gs doc m -> group_neutron Gs p -> p_energy p = Group g -> p_cell p = Some c -> c_material c = Some m ->
  absorbs X doc m g ->
  exists q, collide (A := XRa) fuel t (Fin s) (set_rng p l) = Ok q /\ p_event q = capture /\ p_cell q = Some c.
Proof.
  intros M N0 Eg Ec Em Ab. pose proof (open_valid _ given_open) as V.
  destruct (collide_is X Gs doc m c p M N0 Ec Em fuel t s) as (q & Nq & Qe & Qc & _ & Cq).
  rewrite Cq. rewrite <- Qe in Eg. rewrite <- Qc in Ec.
  pose proof (mixture_group Gs g q Nq Eg) as Hg.
  assert (N1 : group_neutron Gs (set_rng q l)) by (destruct Nq; constructor; auto).
  destruct (material_total Given X Gs m (set_rng q l) (mixture_material X Gs doc m M) N1) as (Fo & T & HT & _ & _ & ET).
  destruct (sample_nuclide_fin Given (set_rng q l) c m V Ec Em Fo) as (u & nu & pre & a & post & _ & _ & Es & El & _).
  { rewrite ET. exact HT. }
  unfold react. rewrite Es. cbn [bind].
  assert (Hin : In (nu, a) (m_afracs m)) by (rewrite El; apply in_elt).
  destruct M as (_ & _ & MH). destruct (MH nu a Hin) as (_ & mg & Dn & C & S & W & P).
  destruct (Ab nu a Hin) as [A1 A2].
  set (q1 := set_rng (set_rng q l) (snd (runif Given (p_rng (set_rng q l))))).
  assert (At : nu_at nu q1 = Ok (IMultigroup mg)).
  { apply nu_multigroup. cbn [p_type set_rng q1]. rewrite (gn_type _ _ Nq). exact Dn. }
  unfold nu_interact. rewrite At. cbn [bind].
  destruct (reaction_selected Given X (doc nu) mg q1 g V C S) as (u' & r & _ & _ & Ei & _ & Pr & _).
  { rewrite W. exact Hg. }
  { exact Eg. }
  { exact (P g Hg). }
  rewrite Ei. destruct r; [|lra|lra]. eexists. split; [reflexivity|]. split; [reflexivity|exact Ec].
Qed.

Section Walk.
  Context (X : Ext XRa) (Gs : list N) (doc : nuclide XRa -> node) (w : world XRa) (g : N) (v : vec) (t : tracking) (id : nat).

  Let walk fuel (p : particle XRa Given) := last_state (transport_loop (A := XRa) (fun (_ : Datatypes.unit) _ => Ok tt) t fuel w tt p).

  Lemma cell_chance o c x o' c' p fuel n y : layer X Gs doc w g v o c x o' c' -> ready Gs g v o c p -> is_alive p = true ->
    (forall q, ready Gs g v o' c' q -> p_event q = match c_material c' with Some _ => surface_cross | None => leak end ->
       chance n (fun l => comes_to (walk fuel (set_rng q l)) (captured_in id)) y) ->
    chance (S n) (fun l => comes_to (walk (S fuel) (set_rng p l)) (captured_in id))
      ((1 - exp (- x)) * (if Nat.eqb (c_id c) id then 1 else 0) + exp (- x) * y).
  Proof.
    intros (m & d & D & k & Em & M & Ab & Hd & U & PD & (s & Es) & Ek & -> & Fc & Ex) [N0 Eg Ec Eo Ev] Al Hn.
    assert (All : mixed_sum doc m (fun n => sigma X n Rcapture g) = mixed_sum doc m (any_reaction X g)).
    { apply mixed_ext. intros nu a Hin. destruct (Ab nu a Hin) as [A1 A2]. unfold any_reaction. rewrite A1, A2. ring. }
    rewrite All in Ex.
    pose proof (mu_pos X Gs doc m p g d M N0 Eg Hd) as Pm.
    destruct (exp_small _ D Pm ltac:(lra)) as [B1 B2]. rewrite <- Ex in B1, B2.
    set (us := 1 - exp (- x)). set (z := if Nat.eqb (c_id c) id then 1 else 0).
    exists (fun u => if Rlt_dec u us then z else y), [us]. split.
    - intros u Hu Nu. assert (u <> us) by (intros ->; apply Nu; now left).
      destruct (Rlt_dec u us) as [L|L].
      + apply (chance_sure n _ (Nat.eqb (c_id c) id)). intros l.
        assert (L' : u < 1 - exp (- (d * mixed_sum doc m (any_reaction X g) * D))) by (rewrite <- Ex; exact L).
        apply (draw_before _ D u Pm ltac:(lra)) in L'.
        destruct (step_before X Gs doc m c w p g o v D d t fuel s M N0 Eg Ec Em Hd Eo Ev Es u l Hu L') as [l' St].
        destruct (absorbed_there X Gs doc m c p g t fuel
          (- ln (1 - u) / (d * mixed_sum doc m (any_reaction X g))) l' M N0 Eg Ec Em Ab) as (q & Eq & Qe & Qc).
        assert (W : walk (S fuel) (set_rng p (u :: l)) = Ok q).
        { unfold walk. rewrite (walk_step w t fuel (set_rng p (u :: l)) q Al (eq_trans St Eq)).
          apply walk_dead. unfold is_alive. now rewrite Qe. }
        rewrite W. cbn [comes_to]. unfold captured_in. now rewrite Qe, Qc.
      + assert (L' : D < - ln (1 - u) / (d * mixed_sum doc m (any_reaction X g))).
        { apply (draw_after _ D u Pm ltac:(lra)). rewrite <- Ex. fold us. lra. }
        eapply chance_ext.
        * intros l. cbv beta. unfold walk.
          rewrite (walk_step w t fuel (set_rng p (u :: l)) _ Al
            (step_beyond X Gs doc m c c' w p g o v D d k t fuel s M N0 Eg Ec Em Hd Eo Ev Es Ek Fc u l Hu L')).
          reflexivity.
        * apply Hn; [|reflexivity]. constructor; try reflexivity; auto.
          destruct N0 as [Ty Gr _ Di]. constructor; auto. exists (along o v (D + k)). reflexivity.
    - replace (us * z + exp (- x) * y) with (us * z + (1 - us) * y) by (unfold us; ring).
      apply integral_chasles with us.
      + apply (integral_ext (fun _ => z)); [unfold us; lra| |apply integral_is; ring].
        intros u Hu. destruct (Rlt_dec u us); [reflexivity|lra].
      + apply (integral_ext (fun _ => y)); [unfold us; lra| |apply integral_is; ring].
        intros u Hu. destruct (Rlt_dec u us); [lra|reflexivity].
  Qed.

  (** The chance that is claimed, cell by cell. *)
  Fixpoint share (l : list (cell XRa * R)) : R :=
    match l with
    | [] => 0
    | (c, x) :: l' => (1 - exp (- x)) * (if Nat.eqb (c_id c) id then 1 else 0) + exp (- x) * share l'
    end.
  Lemma stack_chance o c l : stack X Gs doc w g v o c l -> forall p fuel more, ready Gs g v o c p -> is_alive p = true ->
    chance (length l + more) (fun l' => comes_to (walk (length l + fuel) (set_rng p l')) (captured_in id)) (share l).
  Proof.
    induction 1 as [o c x o' c' L Nm|o c x o' c' l L Ls IH]; intros p fuel more R Al; cbn [length Nat.add share].
    - apply (cell_chance o c x o' c' p fuel more 0 L R Al).
      intros q _ Qe. rewrite Nm in Qe. apply chance_never. intros l.
      assert (W : walk fuel (set_rng q l) = Ok (set_rng q l)).
      { apply walk_dead. unfold is_alive. cbn [p_event set_rng]. now rewrite Qe. }
      rewrite W. cbn [comes_to]. unfold captured_in. cbn [p_event set_rng]. now rewrite Qe.
    - apply (cell_chance o c x o' c' p (length l + fuel) (length l + more) _ L R Al).
      intros q Rq Qe.
      assert (Mc : exists m', c_material c' = Some m').
      { inversion Ls as [? ? ? ? ? (m' & ? & ? & ? & E & _)|? ? ? ? ? ? (m' & ? & ? & ? & E & _)]; subst; eauto. }
      destruct Mc as [m' Mc]. rewrite Mc in Qe. apply IH; auto. unfold is_alive. now rewrite Qe.
  Qed.
End Walk.

Lemma share_none id l : ~ In id (map (fun y => c_id (fst y)) l) -> share id l = 0.
Proof.
  induction l as [|[c x] l IH]; cbn; [reflexivity|]. intros N.
  rewrite IH by tauto. destruct (Nat.eqb_spec (c_id c) id); [tauto|ring].
Qed.
Lemma share_is c x after : forall before,
  NoDup (map (fun y => c_id (fst y)) (before ++ (c, x) :: after)) ->
  share (c_id c) (before ++ (c, x) :: after) = exp (- Rsum (map snd before)) * (1 - exp (- x)).
Proof.
  induction before as [|[c' x'] before IH]; cbn [app map fst snd share Rsum]; intros Nd; inversion Nd as [|? ? N1 N2]; subst.
  - rewrite Nat.eqb_refl, share_none by exact N1. rewrite Ropp_0, exp_0. ring.
  - rewrite IH by exact N2. destruct (Nat.eqb_spec (c_id c') (c_id c)) as [E|_].
    + exfalso. apply N1. rewrite E, map_app. apply in_or_app. right. now left.
    + replace (- (x' + Rsum (map snd before))) with (- x' + - Rsum (map snd before)) by ring. rewrite exp_plus. ring.
Qed.

Lemma C111_depth_proof :
  forall (X : Ext XRa) (Gs : list N) (doc : nuclide XRa -> node) (w : world XRa) (g : N) (o v : vec) (c : cell XRa)
    (before after : list (cell XRa * R)) (here : cell XRa) (x : R) (p : particle XRa Given) (t : tracking) (fuel more : nat)
    (E : Type) (score : E -> particle XRa Given -> outcome E) (e : E),
  let cells := (before ++ (here, x) :: after)%list in
  group_neutron Gs p -> p_energy p = Group g -> is_alive p = true ->
  p_position p = pt o -> p_direction p = pt v ->
  find_cell w (pt o) = Ok c -> stack X Gs doc w g v o c cells -> NoDup (map (fun y => c_id (fst y)) cells) ->
  (forall e' q, exists e'', score e' q = Ok e'') ->
  chance (length cells + more)
    (fun l => comes_to (last_state (transport (A := XRa) score t (length cells + fuel) w e (set_rng p l)))
                (captured_in (c_id here)))
    (exp (- Rsum (map snd before)) * (1 - exp (- x))).
Proof.
  intros X Gs doc w g o v c before after here x p0 t fuel more E score e cells N0 Eg Al Eo Ev Fc St Nd Sc.
  set (p := set_cell p0 c).
  assert (R : ready Gs g v o c p).
  { constructor; auto. destruct N0; constructor; auto. }
  rewrite <- (share_is here x after before Nd).
  eapply chance_ext; [|exact (stack_chance X Gs doc w g v t (c_id here) o c cells St p fuel more R Al)].
  intros l. cbv beta. rewrite <- (walk_unscored score t w (length cells + fuel) Sc e).
  unfold transport. cbn [p_position set_rng]. change (num XRa) with xr in *. rewrite Eo, Fc.
  cbn [bind]. change (set_cell (set_rng p0 l) c) with (set_rng p l). unfold last_state.
  now destruct (transport_loop score t (length cells + fuel) w e (set_rng p l)).
Qed.

Lemma C111_example :
  group_neutron [1]%N slab_neutron /\ p_energy slab_neutron = Group 1 /\ is_alive slab_neutron = true
  /\ p_position slab_neutron = pt (V3 0 0 0) /\ p_direction slab_neutron = pt (V3 1 0 0)
  /\ find_cell two_slabs (pt (V3 0 0 0)) = Ok slab
  /\ exists k, nudge (A := XRa) = Fin k /\ 0 < k < 1
     /\ stack slab_ext [1]%N (fun _ => slab_node) two_slabs 1 (V3 1 0 0) (V3 0 0 0) slab
          ([(slab, 10)] ++ [(second_slab, 10 - k)])
     /\ NoDup (map (fun y => c_id (fst y)) ([(slab, 10)] ++ [(second_slab, 10 - k)])).
Proof.
  destruct C106_example as (Mx & Ab & Nt & _ & _ & _ & _ & _ & _ & _ & S1).
  split; [exact Nt|]. do 4 (split; [reflexivity|]).
  split; [unfold find_cell; cbn; decide_reals; reflexivity|].
  destruct nudge_fin as (k & Ek & _). pose proof (nudge_small k Ek) as Hk. exists k. split; [exact Ek|]. split; [exact Hk|].
  assert (A1 : forall x y, along (V3 x 0 0) (V3 1 0 0) y = V3 (x + y) 0 0).
  { intros x y. unfold along, vadd, vscale. cbn. f_equal; ring. }
  assert (Sd : forall b i nm x, su_distance (mkSurf i (mkSurface nm (PlaneX (Fin b : num XRa)))) (pt (V3 x 0 0)) (pt (V3 1 0 0))
               = if Rltb 0 (b - x) then Fin (b - x) else PInf).
  { intros b i nm x. unfold su_distance. etransitivity; [apply (planex_distance b (V3 x 0 0) (V3 1 0 0))|].
    cbn [vx]. rewrite Reqb_false by lra. replace ((b - x) / 1) with (b - x) by field. reflexivity. }
  split; [|repeat constructor; cbn; intuition discriminate].
  apply under_cell with (o' := V3 (10 + k) 0 0) (c' := second_slab).
  - exists slab_material, 1, 10, k. do 3 (split; [first [reflexivity|assumption]|]). split; [reflexivity|].
    split; [apply unit_x|]. split; [lra|]. split.
    + exists edge. unfold nearest_surface. cbn [c_senses slab min_surface]. do 2 f_equal.
      unfold edge. rewrite Sd. decide_reals. f_equal. lra.
    + split; [exact Ek|]. split; [rewrite A1; f_equal; lra|]. split.
      * unfold find_cell. cbn. decide_reals. reflexivity.
      * rewrite S1. lra.
  - apply top_cell with (o' := V3 (20 + k) 0 0) (c' := behind); [|reflexivity].
    exists slab_material, 1, (10 - k), k. do 3 (split; [first [reflexivity|assumption]|]). split; [reflexivity|].
    split; [apply unit_x|]. split; [lra|]. split.
    + exists wall.
      assert (Mn : min_surface (A := XRa) edge [(wall, true)] (pt (V3 (10 + k) 0 0)) (pt (V3 1 0 0)) = wall).
      { cbn [min_surface]. change (num XRa) with xr in *. unfold edge, wall at 1 2. rewrite !Sd. decide_reals. reflexivity. }
      unfold nearest_surface. cbn [c_senses second_slab]. cbv zeta. rewrite Mn. do 2 f_equal.
      unfold wall. rewrite Sd. decide_reals. f_equal. lra.
    + split; [exact Ek|]. split; [rewrite A1; f_equal; lra|]. split.
      * unfold find_cell. cbn. decide_reals. reflexivity.
      * rewrite S1. lra.
Qed.
