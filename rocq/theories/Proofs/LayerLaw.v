(** The flight of a neutron through layers of absorbers: property C107. *)
From Coq Require Import Bool String List Reals ZArith NArith Lra Lia.
From Coquelicot Require Import Coquelicot.
From Verif Require Import Model.Num Model.Outcome Model.Rng Model.Xml Model.Std Model.Point
  Model.Surface Model.Types Model.Field Model.Particle Model.Multigroup Model.Thermal
  Model.Continuous Model.Material Model.World Model.Perturbation Model.Estimator Model.Transport
  Spec.Vec Spec.GeometrySpec Spec.DirectionSpec Spec.RngSpec Spec.SumSpec
  Spec.MultigroupSpec Spec.MaterialSpec Spec.TextExt Spec.TransportSpec Spec.ChanceSpec Spec.EndingSpec
  Spec.CollisionSpec Spec.BirthSpec Spec.StepSpec Spec.AbsorbSpec Spec.LayerSpec
  Proofs.OutcomeLib Proofs.RealLib Proofs.RngProofs Proofs.GeometryProofs Proofs.CellProofs
  Proofs.StreamProofs Proofs.StepLib Proofs.DirectionProofs Proofs.MultigroupProofs
  Proofs.MultigroupReal Proofs.MaterialProofs Proofs.TransportProofs Proofs.WellPosed
  Proofs.CrossingProofs Proofs.ChanceLib Proofs.FlightLaw Proofs.HistoryEnds
  Proofs.CollisionLaw Proofs.BirthLaw Proofs.StepLaw Proofs.AbsorbLaw Proofs.SampleProblem.
Import ListNotations.
Local Open Scope R_scope.

Section Step.
  Context (X : Ext XRa) (Gs : list N) (doc : nuclide XRa -> node) (m : material XRa) (c c' : cell XRa)
    (w : world XRa) (p : particle XRa Given) (g : N) (o v : vec) (D d k : R) (t : tracking) (fuel : nat)
    (s : surf XRa).
  Hypotheses (M : mixture X Gs doc m) (N0 : group_neutron Gs p) (Eg : p_energy p = Group g)
    (Ec : p_cell p = Some c) (Em : c_material c = Some m) (Hd : m_density m = Fin d)
    (Eo : p_position p = pt o) (Ev : p_direction p = pt v) (U : unit v) (PD : 0 < D)
    (Es : nearest_surface c (pt o) (pt v) = Ok (s, Fin D))
    (Ek : nudge (A := XRa) = Fin k) (Fc : find_cell w (pt (along o v (D + k))) = Ok c').
  Let T := mixed_sum doc m (any_reaction X g).
  Let dist u := - ln (1 - u) / (d * T).

  (** Before the surface there is a collision. *)
  Lemma step_before u l : 0 < u < 1 -> dist u < D -> exists l',
    transport_step (A := XRa) t fuel w (set_rng p (u :: l)) = collide (A := XRa) fuel t (Fin (dist u)) (set_rng p l').
  Proof.
    intros Hu L. assert (Ed : sample_distance t (set_rng p (u :: l)) = Ok (Fin (dist u), set_rng p l))
      by exact (step_distance X Gs doc m c p g d t M N0 Eg Ec Em Hd u l Hu).
    assert (Gc : get_cell (set_rng p l) = Ok c).
    { unfold get_cell. cbn [p_cell set_rng]. now rewrite Ec. }
    destruct (step_total X Gs doc m p g d M N0 Eg Hd) as (_ & PT & Et). destruct (Et l) as [T1 T2].
    pose proof (step_material m c p Ec Em l) as Gm. clear Et. fold T in PT, T1, T2.
    destruct t; cbn [transport_step]; [unfold surface_step|unfold delta_step];
      rewrite Ed; cbn [bind]; rewrite Gc; cbn [bind p_position p_direction set_rng];
      rewrite Eo, Ev; change (num XRa) with xr in *; rewrite Es; cbn [bind].
    - exists l. change (nltb XRa (Fin (dist u)) (Fin D)) with (Rltb (dist u) D). now rewrite Rltb_true.
    - exists (tl l). change (nltb XRa (Fin D) (Fin (dist u))) with (Rltb D (dist u)).
      rewrite Rltb_false by lra. change (num XRa) with xr in *. rewrite Gm. cbn [bind].
      rewrite T1, T2. cbn [bind].
      assert (Dv : ndiv XRa (Fin T) (Fin T) = Fin 1).
      { cbn. rewrite Reqb_false by lra. f_equal. field. lra. }
      rewrite Dv.
      change (bernoulli Given (Fin 1) (p_rng (set_rng p l))) with (Rltb (inside (hd (/ 2) l)) 1, tl l).
      rewrite Rltb_true by apply inside_range. reflexivity.
  Qed.

  (** Behind it the neutron flies on. *)
  Definition beyond : particle XRa Given :=
    set_event (set_surface (set_cell (set_position (set_indirect p (effects m T (D + k) p)) (pt (along o v (D + k)))) c')
      (Some (su_id s))) (match c_material c' with Some _ => surface_cross | None => leak end).
  Lemma step_beyond u l : 0 < u < 1 -> D < dist u ->
    transport_step (A := XRa) t fuel w (set_rng p (u :: l)) = Ok (set_rng beyond l).
  Proof.
    intros Hu L. assert (Ed : sample_distance t (set_rng p (u :: l)) = Ok (Fin (dist u), set_rng p l))
      by exact (step_distance X Gs doc m c p g d t M N0 Eg Ec Em Hd u l Hu).
    assert (Gc : get_cell (set_rng p l) = Ok c).
    { unfold get_cell. cbn [p_cell set_rng]. now rewrite Ec. }
    assert (Cr : cross_surface (A := XRa) t w s (Fin D) (set_rng p l) = Ok (set_rng beyond l)).
    { assert (St : stream t (set_rng p l) (Fin (D + k))
        = Ok (set_position (set_indirect (set_rng p l) (effects m T (D + k) (set_rng p l))) (pt (along o v (0 + (D + k)))))).
      { apply (stream_is t m T (D + k) o v 0).
        - exact (step_material m c p Ec Em l).
        - exact (step_density X Gs doc m c p g d t M N0 Eg Ec Em Hd l).
        - cbn [p_position set_rng]. rewrite Eo. f_equal. destruct o; unfold along, vadd, vscale; cbn; f_equal; ring.
        - exact Ev. }
      unfold cross_surface. change (num XRa) with xr in *. rewrite Ek.
      change (nadd XRa (Fin D) (Fin k)) with (Fin (D + k)). rewrite St. cbn [bind p_position set_position].
      rewrite Rplus_0_l, Fc. reflexivity. }
    destruct t; cbn [transport_step]; [unfold surface_step|unfold delta_step];
      rewrite Ed; cbn [bind]; rewrite Gc; cbn [bind p_position p_direction set_rng];
      rewrite Eo, Ev; change (num XRa) with xr in *; rewrite Es; cbn [bind].
    - change (nltb XRa (Fin (dist u)) (Fin D)) with (Rltb (dist u) D). rewrite Rltb_false by lra. exact Cr.
    - change (nltb XRa (Fin D) (Fin (dist u))) with (Rltb D (dist u)). rewrite Rltb_true by lra. exact Cr.
  Qed.
End Step.

(** What is scored does not change the walk. *)
Lemma walk_unscored {E : Type} (score : E -> particle XRa Given -> outcome E) t w fuel :
  (forall e' q, exists e'', score e' q = Ok e'') -> forall e p,
  last_state (transport_loop (A := XRa) score t fuel w e p)
  = last_state (transport_loop (A := XRa) (fun (_ : Datatypes.unit) _ => Ok tt) t fuel w tt p).
Proof.
  intros Sc. induction fuel as [|fuel IH]; intros e p; cbn [transport_loop]; destruct (is_alive p); try reflexivity.
  destruct (transport_step t fuel w p) as [q| | | |]; cbn [bind]; try reflexivity.
  destruct (Sc e q) as [e1 E1]. rewrite E1. cbn [bind]. apply IH.
Qed.

Section Walk.
  Context (X : Ext XRa) (Gs : list N) (doc : nuclide XRa -> node) (w : world XRa) (g : N) (v : vec) (t : tracking).

  Let walk fuel (p : particle XRa Given) := last_state (transport_loop (A := XRa) (fun (_ : Datatypes.unit) _ => Ok tt) t fuel w tt p).
  Let leaks (q : particle XRa Given) : bool := event_eqb (p_event q) leak.

  (** Ready to fly through cell [c]. *)
  Record ready (o : vec) (c : cell XRa) (p : particle XRa Given) : Prop := {
    rd_neutron : group_neutron Gs p; rd_group : p_energy p = Group g; rd_cell : p_cell p = Some c;
    rd_position : p_position p = pt o; rd_direction : p_direction p = pt v
  }.

  Lemma walk_dead fuel p : is_alive p = false -> walk fuel p = Ok p.
  Proof. intros A. unfold walk. destruct fuel; cbn [transport_loop]; rewrite A; reflexivity. Qed.
  Lemma walk_step fuel p q : is_alive p = true -> transport_step (A := XRa) t fuel w p = Ok q -> walk (S fuel) p = walk fuel q.
  Proof. intros A E. unfold walk. cbn [transport_loop]. rewrite A, E. reflexivity. Qed.

  Lemma layer_chance o c x o' c' p fuel n y : layer X Gs doc w g v o c x o' c' -> ready o c p -> is_alive p = true ->
    (forall q, ready o' c' q -> p_event q = match c_material c' with Some _ => surface_cross | None => leak end ->
       chance n (fun l => comes_to (walk fuel (set_rng q l)) leaks) y) ->
    chance (S n) (fun l => comes_to (walk (S fuel) (set_rng p l)) leaks) (exp (- x) * y).
  Proof.
    intros (m & d & D & k & Em & M & Ab & Hd & U & PD & (s & Es) & Ek & -> & Fc & Ex) [N0 Eg Ec Eo Ev] Al Hn.
    assert (All : mixed_sum doc m (fun n => sigma X n Rcapture g) = mixed_sum doc m (any_reaction X g)).
    { apply mixed_ext. intros nu a Hin. destruct (Ab nu a Hin) as [A1 A2]. unfold any_reaction. rewrite A1, A2. ring. }
    rewrite All in Ex.
    pose proof (mu_pos X Gs doc m p g d M N0 Eg Hd) as Pm.
    destruct (exp_small _ D Pm ltac:(lra)) as [B1 B2]. rewrite <- Ex in B1, B2.
    set (us := 1 - exp (- x)).
    exists (fun u => if Rlt_dec u us then 0 else y), [us]. split.
    - intros u Hu Nu. assert (u <> us) by (intros ->; apply Nu; now left).
      destruct (Rlt_dec u us) as [L|L].
      + apply chance_never. intros l.
        assert (L' : u < 1 - exp (- (d * mixed_sum doc m (any_reaction X g) * D))) by (rewrite <- Ex; exact L).
        apply (draw_before _ D u Pm ltac:(lra)) in L'.
        destruct (step_before X Gs doc m c w p g o v D d t fuel s M N0 Eg Ec Em Hd Eo Ev Es u l Hu L') as [l' St].
        destruct (absorbed X Gs doc m c p g t fuel M N0 Eg Ec Em Ab
          (- ln (1 - u) / (d * mixed_sum doc m (any_reaction X g))) l') as (q & Eq & Qe).
        rewrite (walk_step fuel (set_rng p (u :: l)) q Al (eq_trans St Eq)), walk_dead by (unfold is_alive; now rewrite Qe).
        cbn [comes_to]. unfold leaks. now rewrite Qe.
      + assert (L' : D < - ln (1 - u) / (d * mixed_sum doc m (any_reaction X g))).
        { apply (draw_after _ D u Pm ltac:(lra)). rewrite <- Ex. fold us. lra. }
        eapply chance_ext.
        * intros l. cbv beta.
          rewrite (walk_step fuel (set_rng p (u :: l)) _ Al
            (step_beyond X Gs doc m c c' w p g o v D d k t fuel s M N0 Eg Ec Em Hd Eo Ev Es Ek Fc u l Hu L')).
          reflexivity.
        * apply Hn; [|reflexivity]. constructor; try reflexivity; auto.
          destruct N0 as [Ty Gr _ Di]. constructor; auto. exists (along o v (D + k)). reflexivity.
    - replace (exp (- x) * y) with (us * 0 + (1 - us) * y) by (unfold us; ring).
      apply integral_chasles with us.
      + apply (integral_ext (fun _ => 0)); [unfold us; lra| |apply integral_is; ring].
        intros u Hu. destruct (Rlt_dec u us); [reflexivity|lra].
      + apply (integral_ext (fun _ => y)); [unfold us; lra| |apply integral_is; ring].
        intros u Hu. destruct (Rlt_dec u us); [lra|reflexivity].
  Qed.

  Lemma layers_chance n o c x : layers X Gs doc w g v n o c x -> forall p fuel more, ready o c p -> is_alive p = true ->
    chance (n + more) (fun l => comes_to (walk (n + fuel) (set_rng p l)) leaks) (exp (- x)).
  Proof.
    induction 1 as [o c x o' c' L Nm|n o c x o' c' y L Ls IH]; intros p fuel more R Al; cbn [Nat.add].
    - rewrite <- (Rmult_1_r (exp (- x))). apply (layer_chance o c x o' c' p fuel more 1 L R Al).
      intros q _ Qe. rewrite Nm in Qe. apply (chance_sure more _ true). intros l.
      rewrite walk_dead by (unfold is_alive; cbn [p_event set_rng]; now rewrite Qe).
      cbn [comes_to]. unfold leaks. cbn [p_event set_rng]. now rewrite Qe.
    - replace (- (x + y)) with (- x + - y) by ring. rewrite exp_plus.
      apply (layer_chance o c x o' c' p (n + fuel) (n + more) _ L R Al).
      intros q Rq Qe.
      assert (Mc : exists m', c_material c' = Some m').
      { inversion Ls as [? ? ? ? ? (m' & ? & ? & ? & E & _)|? ? ? ? ? ? ? (m' & ? & ? & ? & E & _)]; subst; eauto. }
      destruct Mc as [m' Mc]. rewrite Mc in Qe. apply IH; auto. unfold is_alive. now rewrite Qe.
  Qed.
End Walk.

(** A neutron gets through all layers. *)
Lemma C107_layers_proof :
  forall (X : Ext XRa) (Gs : list N) (doc : nuclide XRa -> node) (w : world XRa) (g : N) (o v : vec) (c : cell XRa)
    (n : nat) (x : R) (p : particle XRa Given) (t : tracking) (fuel more : nat)
    (E : Type) (score : E -> particle XRa Given -> outcome E) (e : E),
  group_neutron Gs p -> p_energy p = Group g -> is_alive p = true ->
  p_position p = pt o -> p_direction p = pt v ->
  find_cell w (pt o) = Ok c -> layers X Gs doc w g v n o c x ->
  (forall e' q, exists e'', score e' q = Ok e'') ->
  chance (n + more)
    (fun l => comes_to (last_state (transport (A := XRa) score t (n + fuel) w e (set_rng p l)))
                (fun q => event_eqb (p_event q) leak))
    (exp (- x)).
Proof.
  intros X Gs doc w g o v c n x p0 t fuel more E score e N0 Eg Al Eo Ev Fc Ls Sc.
  set (p := set_cell p0 c).
  assert (R : ready Gs g v o c p).
  { constructor; auto. destruct N0; constructor; auto. }
  eapply chance_ext; [|exact (layers_chance X Gs doc w g v t n o c x Ls p fuel more R Al)].
  intros l. cbv beta. rewrite <- (walk_unscored score t w (n + fuel) Sc e).
  unfold transport. cbn [p_position set_rng]. change (num XRa) with xr in *. rewrite Eo, Fc.
  cbn [bind]. change (set_cell (set_rng p0 l) c) with (set_rng p l). unfold last_state.
  now destruct (transport_loop score t (n + fuel) w e (set_rng p l)).
Qed.

(** Two slabs of absorber, one behind the other. *)
Definition wall : surf XRa := mkSurf 1 (mkSurface "wall" (PlaneX (Fin 20 : num XRa))).
Definition second_slab : cell XRa := mkCell 1 "second" [(edge, false); (wall, true)] (Some slab_material) warmth.
Definition behind : cell XRa := mkCell 2 "" [(wall, false)] None warmth.
Definition two_slabs : world XRa :=
  mkWorld [edge; wall] [slab_nuclide] [slab_material] warmth [slab; second_slab; behind].

Lemma nudge_small k : nudge (A := XRa) = Fin k -> 0 < k < 1.
Proof.
  intros E. destruct nudge_fin as (k' & E' & Hk). rewrite E in E'. injection E' as <-. split; [exact Hk|].
  change (nudge (A := XRa)) with (Fin (10 * / IZR (2 ^ 52))) in E. injection E as <-.
  apply (Rmult_lt_reg_r (IZR (2 ^ 52))); [apply IZR_lt; reflexivity|].
  rewrite Rmult_assoc, Rinv_l, Rmult_1_r, Rmult_1_l; [apply IZR_lt; reflexivity|].
  apply not_0_IZR. discriminate.
Qed.

Lemma C107_example :
  group_neutron [1]%N slab_neutron /\ p_energy slab_neutron = Group 1 /\ is_alive slab_neutron = true
  /\ p_position slab_neutron = pt (V3 0 0 0) /\ p_direction slab_neutron = pt (V3 1 0 0)
  /\ find_cell two_slabs (pt (V3 0 0 0)) = Ok slab
  /\ exists k, nudge (A := XRa) = Fin k /\ 0 < k < 1
     /\ layers slab_ext [1]%N (fun _ => slab_node) two_slabs 1 (V3 1 0 0) 2 (V3 0 0 0) slab (10 + (10 - k)).
Proof.
  destruct C106_example as (Mx & Ab & Nt & _ & _ & _ & _ & _ & _ & _ & S1).
  split; [exact Nt|]. do 4 (split; [reflexivity|]).
  split; [unfold find_cell; cbn; decide_reals; reflexivity|].
  destruct nudge_fin as (k & Ek & _). pose proof (nudge_small k Ek) as Hk. exists k. split; [exact Ek|]. split; [exact Hk|].
  assert (A1 : forall x y, along (V3 x 0 0) (V3 1 0 0) y = V3 (x + y) 0 0).
  { intros x y. unfold along, vadd, vscale. cbn. f_equal; ring. }
  assert (Sd : forall b i nm x, su_distance (mkSurf i (mkSurface nm (PlaneX (Fin b : num XRa)))) (pt (V3 x 0 0)) (pt (V3 1 0 0))
               = if Rltb 0 (b - x) then Fin (b - x) else PInf).
  { intros b i nm x. unfold su_distance. etransitivity; [apply (planex_distance b (V3 x 0 0) (V3 1 0 0))|].
    cbn [vx]. rewrite Reqb_false by lra. replace ((b - x) / 1) with (b - x) by field. reflexivity. }
  apply next_layer with (o' := V3 (10 + k) 0 0) (c' := second_slab).
  - exists slab_material, 1, 10, k. do 3 (split; [first [reflexivity|assumption]|]). split; [reflexivity|].
    split; [apply unit_x|]. split; [lra|]. split.
    + exists edge. unfold nearest_surface. cbn [c_senses slab min_surface]. do 2 f_equal.
      unfold edge. rewrite Sd. decide_reals. f_equal. lra.
    + split; [exact Ek|]. split; [rewrite A1; f_equal; lra|]. split.
      * unfold find_cell. cbn. decide_reals. reflexivity.
      * rewrite S1. lra.
  - apply last_layer with (o' := V3 (20 + k) 0 0) (c' := behind); [|reflexivity].
    exists slab_material, 1, (10 - k), k. do 3 (split; [first [reflexivity|assumption]|]). split; [reflexivity|].
    split; [apply unit_x|]. split; [lra|]. split.
    + exists wall.
      assert (Mn : min_surface (A := XRa) edge [(wall, true)] (pt (V3 (10 + k) 0 0)) (pt (V3 1 0 0)) = wall).
      { cbn [min_surface]. change (num XRa) with xr in *. unfold edge, wall at 1 2. rewrite !Sd. decide_reals. reflexivity. }
      unfold nearest_surface. cbn [c_senses second_slab]. cbv zeta. rewrite Mn. do 2 f_equal.
      unfold wall. rewrite Sd. decide_reals. f_equal. lra.
    + split; [exact Ek|]. split; [rewrite A1; f_equal; lra|]. split.
      * unfold find_cell. cbn. decide_reals. reflexivity.
      * rewrite S1. lra.
Qed.
