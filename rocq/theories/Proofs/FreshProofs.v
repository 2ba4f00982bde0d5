(** Random numbers are used once: C85. *)
From Coq Require Import Bool String List Reals ZArith NArith Lra Lia.
From Verif Require Import Model.Num Model.Outcome Model.Rng Model.Xml Model.Std Model.Point
  Model.Surface Model.Types Model.Field Model.Particle Model.Multigroup Model.Thermal
  Model.Continuous Model.Material Model.World Model.Perturbation Model.Estimator Model.Transport
  Model.Driver
  Spec.Vec Spec.GeometrySpec Spec.CellSpec Spec.DirectionSpec Spec.RngSpec Spec.SumSpec
  Spec.MultigroupSpec Spec.TransportSpec Spec.FrequencySpec Spec.FreshSpec
  Proofs.OutcomeLib Proofs.RealLib Proofs.BinsProofs Proofs.RngProofs Proofs.StreamProofs Proofs.StepLib
  Proofs.DirectionProofs Proofs.MultigroupProofs Proofs.MultigroupReal Proofs.MaterialProofs
  Proofs.TransportProofs Proofs.PeriodProofs.
Import ListNotations.
Local Open Scope R_scope.

Lemma after_app {A} (G : Rng A) l l' s : after_calls G (l ++ l') s = after_calls G l' (after_calls G l s).
Proof. revert s. induction l as [|c l IH]; intros s; cbn; auto. Qed.

Lemma isotropic_calls {A} (G : Rng A) s : snd (dir_isotropic G s) = after_calls G [Uniform; Uniform] s.
Proof.
  unfold dir_isotropic, uniform. cbn [after_calls after_call].
  destruct (runif G s) as [u s1]. cbn [snd]. destruct (runif G s1) as [v s2]. reflexivity.
Qed.

(** Scattering. *)
Lemma scatter_fresh (G : Rng XRa) X n m (p q : particle XRa G) g :
  valid_rng G -> built X n m -> sensible_data X n -> scatter_node n <> None ->
  In g (groups (written_groups X n)) -> p_energy p = Group g ->
  0 < column_sum X n (scatter_node n) g -> mg_scatter m p = Ok q ->
  p_rng q = after_calls G [Uniform; Uniform; Uniform] (p_rng p)
  /\ p_direction q = fst (dir_isotropic G (after_calls G [Uniform] (p_rng p))).
Proof.
  intros V B S Ns Hg Ep Hs Hq. pose proof (sd_groups _ _ S) as HG.
  assert (Nn : nonneg_numbers X (scatter_node n)).
  { apply (sd_nonneg _ _ S); auto. right; now left. }
  destruct (unif_fin G (set_event p scatter) V) as (v & Hv & Ev & Eu).
  destruct (pick_column X n (scatter_node n) g v Nn HG Hv) as (sel & Esel & Sel & _).
  destruct (Sel Hs) as (h & -> & Hh & Hw & Hb).
  unfold mg_scatter in Hq. rewrite Eu in Hq.
  pose proof (bu_scatter _ _ _ B) as Bs.
  destruct (scatter_node n) as [c|] eqn:Ec; [|congruence]. rewrite <- Ec in *.
  destruct Bs as [Bs _]. rewrite Bs in Hq. cbn [of_option bind] in Hq.
  change (p_energy (set_rng (set_event p scatter) (snd (runif G (p_rng (set_event p scatter))))))
    with (p_energy p) in Hq. rewrite Ep in Hq. cbn [get_group bind] in Hq.
  pose proof (proj1 (in_groups _ _) Hg) as Hg'.
  rewrite (group_at_nth _ _ []) in Hq; try lia.
  2: { rewrite map_length, groups_length. lia. }
  rewrite (nth_groups _ _ _ _ Hg), (normalized_fin X n (scatter_node n) g Nn) in Hq. cbn [bind] in Hq.
  rewrite (bu_groups _ _ _ B) in Hq. change (nofZ XRa 0) with (Fin 0) in Hq. rewrite Esel in Hq.
  cbn [bind noexcept] in Hq. apply Ok_inj in Hq. subst q.
  unfold set_direction_isotropic.
  change (p_rng (set_energy (set_rng (set_event p scatter) (snd (runif G (p_rng (set_event p scatter)))))
    (Group h))) with (after_calls G [Uniform] (p_rng p)).
  pose proof (isotropic_calls G (after_calls G [Uniform] (p_rng p))) as I.
  destruct (dir_isotropic G (after_calls G [Uniform] (p_rng p))) as [d s'].
  cbn [snd] in I. cbn [p_rng p_direction set_direction set_rng fst]. split; [|reflexivity].
  rewrite I. reflexivity.
Qed.

(** Fission. *)
Lemma loop_fresh (G : Rng XRa) X n m g : forall k (p q : particle XRa G),
  valid_rng G -> built X n m -> nonneg_numbers X (chi_node n) -> (written_groups X n < 2 ^ 64)%N ->
  0 < column_sum X n (chi_node n) g ->
  mg_fission_loop (A := XRa) k m
    (map Fin (map (share X n (chi_node n) g) (groups (written_groups X n)))) p = Ok q ->
  exists new, p_secondaries q = (p_secondaries p ++ new)%list
    /\ length new = k /\ born_from X n g (p_rng p) new (p_rng q).
Proof.
  induction k as [|k IH]; intros p q V B Nn HG Hc Hq; cbn [mg_fission_loop] in Hq.
  - apply Ok_inj in Hq. subst q. exists []. rewrite app_nil_r. repeat split. constructor.
  - destruct (unif_fin G p V) as (v & Hv & Ev & Eu). rewrite Eu in Hq.
    destruct (pick_column X n (chi_node n) g v Nn HG Hv) as (sel & Esel & Sel & _).
    rewrite (bu_groups _ _ _ B) in Hq. change (nofZ XRa 0) with (Fin 0) in Hq.
    rewrite Esel in Hq. cbn [bind] in Hq.
    destruct (Sel Hc) as (h & -> & Hh & Hw & Hb).
    set (p1 := set_rng p (snd (runif G (p_rng p)))) in *.
    change (p_rng p1) with (after_calls G [Uniform] (p_rng p)) in Hq.
    pose proof (isotropic_calls G (after_calls G [Uniform] (p_rng p))) as I.
    destruct (dir_isotropic G (after_calls G [Uniform] (p_rng p))) as [d s] eqn:Ed.
    cbn [snd] in I. unfold bank_secondary in Hq. cbn [p_rng set_rng] in Hq.
    destruct (rraw G s) as [seed s'] eqn:Er.
    apply IH in Hq; auto. destruct Hq as (new & E1 & E2 & E3).
    cbn [p_secondaries set_secondaries set_rng p1 p_position p_cell p_rng] in E1, E3.
    eexists. split; [rewrite E1, <- app_assoc; reflexivity|]. cbn [app length]. split; [now rewrite E2|].
    econstructor; [exact Ev|reflexivity|exact Hh|exact Hb|rewrite Ed; reflexivity| |].
    + change (after_calls G [Uniform; Uniform; Uniform] (p_rng p))
        with (after_calls G [Uniform; Uniform] (after_calls G [Uniform] (p_rng p))).
      rewrite <- I, Er. reflexivity.
    + change (after_calls G [Uniform; Uniform; Uniform; Raw] (p_rng p))
        with (snd (rraw G (after_calls G [Uniform; Uniform] (after_calls G [Uniform] (p_rng p))))).
      rewrite <- I, Er. exact E3.
Qed.

Lemma fission_fresh (G : Rng XRa) X n m (p q : particle XRa G) g :
  valid_rng G -> built X n m -> sensible_data X n -> fission_node n <> None ->
  In g (groups (written_groups X n)) -> p_energy p = Group g ->
  0 < column_sum X n (chi_node n) g -> mg_fission m p = Ok q ->
  exists new, p_secondaries q = (p_secondaries p ++ new)%list
    /\ born_from X n g (after_calls G [Uniform] (p_rng p)) new (p_rng q).
Proof.
  intros V B S Nf Hg Ep Hc Hq. pose proof (sd_groups _ _ S) as HG.
  destruct (sd_fission _ _ S Nf) as [Nu Nc].
  assert (Nnc : nonneg_numbers X (chi_node n)).
  { apply (sd_nonneg _ _ S); auto. do 4 right; now left. }
  pose proof (proj1 (in_groups _ _) Hg) as Hg'.
  unfold mg_fission in Hq. apply -> @noexcept_ok in Hq.
  change (p_energy (set_event p fission)) with (p_energy p) in Hq. rewrite Ep in Hq.
  cbn [get_group bind] in Hq.
  apply bind_ok in Hq as (nubar & _ & Hq). apply bind_ok in Hq as (nu & _ & Hq).
  destruct (unif_fin G (set_event p fission) V) as (u & Hu & Eu & Euu). rewrite Euu in Hq.
  apply bind_ok in Hq as (y & _ & Hq).
  pose proof (bu_chi _ _ _ B) as Bc. destruct (chi_node n) as [c2|] eqn:E2; [|congruence].
  rewrite <- E2 in *. destruct Bc as [Bc _]. rewrite Bc in Hq. cbn [of_option bind] in Hq.
  rewrite (group_at_nth _ _ []) in Hq; try lia.
  2: { rewrite map_length, groups_length. lia. }
  rewrite (nth_groups _ _ _ _ Hg), (normalized_fin X n (chi_node n) g Nnc) in Hq. cbn [bind] in Hq.
  apply loop_fresh with (X := X) (n := n) in Hq; auto.
  destruct Hq as (new & E1 & _ & E3). exists new. split; [exact E1|exact E3].
Qed.

Lemma C85_collision_proof :
  forall (G : Rng XRa) (X : Ext XRa) n m (p q : particle XRa G) g,
  valid_rng G -> multigroup_create X n = Ok m -> sensible_data X n ->
  In g (groups (written_groups X n)) -> p_energy p = Group g ->
  0 < sigma X n Rcapture g + sigma X n Rscatter g + sigma X n Rfission g ->
  (fission_node n <> None -> 0 < column_sum X n (chi_node n) g) ->
  mg_interact m p = Ok q ->
  match p_event q with
  (* one number, for the choice of the reaction *)
  | capture => p_rng q = after_calls G [Uniform] (p_rng p)
  (* one more for the group, and two for the direction *)
  | scatter => p_direction q = fst (dir_isotropic G (after_calls G [Uniform; Uniform] (p_rng p)))
               /\ p_rng q = after_calls G [Uniform; Uniform; Uniform; Uniform] (p_rng p)
  (* one more for the yield, then those of each secondary *)
  | fission => exists new, p_secondaries q = (p_secondaries p ++ new)%list
               /\ born_from X n g (after_calls G [Uniform; Uniform] (p_rng p)) new (p_rng q)
  | _ => False
  end.
Proof.
  intros G X n m p q g V H S Hg Ep T Hc Eq.
  destruct (reaction_selected G X n m p g V H S Hg Ep T) as (u & r & Eu & Hu & E & W & P & I).
  pose proof (multigroup_built X n m H) as B.
  set (p1 := set_rng p (snd (runif G (p_rng p)))) in *. cbn zeta in E. rewrite Eq in E.
  symmetry in E. apply -> @noexcept_ok in E. destruct r.
  - apply Ok_inj in E. subst q. reflexivity.
  - assert (Ns : scatter_node n <> None).
    { cbn [written_xs] in W. unfold present in W. fold (scatter_node n) in W.
      destruct (is_null (scatter_node n)) eqn:Z; [discriminate|]. now apply is_null_false. }
    assert (Cs : 0 < column_sum X n (scatter_node n) g).
    { rewrite <- (proj2 (C21_total_reals_proof G X n m p g H S Hg Ep) Ns). exact P. }
    destruct (mg_scatter_real G X n m p1 g V B S Ns Hg Ep Cs)
      as (v & h & q' & _ & _ & Eq' & Ev & _). rewrite Eq' in E. apply Ok_inj in E. subst q'.
    rewrite Ev.
    destruct (scatter_fresh G X n m p1 q g V B S Ns Hg Ep Cs Eq') as [E1 E2]. split; assumption.
  - assert (Nf : fission_node n <> None).
    { cbn [written_xs] in W. unfold present in W. fold (fission_node n) in W.
      destruct (is_null (fission_node n)) eqn:Z; [discriminate|]. now apply is_null_false. }
    destruct (mg_fission_real G X n m p1 g V B S Nf Hg Ep)
      as (v & q' & new & _ & _ & Eq' & Ev & _). rewrite Eq' in E. apply Ok_inj in E. subst q'.
    rewrite Ev. exact (fission_fresh G X n m p1 q g V B S Nf Hg Ep (Hc Nf) Eq').
Qed.

(** Steps of transport. *)
Lemma step_calls :
  forall (A : Arith) (G : Rng A) t fuel (w : world A) (p q : particle A G),
  transport_step t fuel w p = Ok q ->
  (* a crossing: one number, for the length of the flight *)
  p_rng q = after_calls G [Uniform] (p_rng p) /\ (p_event q = surface_cross \/ p_event q = leak)
     /\ p_surface q <> None
  (* a virtual collision: one more for its acceptance *)
  \/ (t = CellDeltaTracking /\ p_event q = virtual_collision
      /\ p_rng q = after_calls G [Uniform; Uniform] (p_rng p)
      /\ exists c m x T M, in_material p c m /\ mat_total m (set_rng p x) = Ok T
         /\ mat_majorant m (set_rng p x) = Ok M
         /\ nltb A (fst (runif G x)) (ndiv A T M) = false)
  (* a collision: one more for the nuclide, and those of the interaction *)
  \/ (exists c m nu a p1, in_material p c m /\ In (nu, a) (m_afracs m)
      /\ nu_interact fuel nu p1 = Ok q /\ p_energy p1 = p_energy p /\ p_type p1 = p_type p
      /\ p_secondaries p1 = p_secondaries p /\ p_surface p1 = p_surface p
      /\ p_rng p1 = match t with
                    | SurfaceTracking => after_calls G [Uniform; Uniform] (p_rng p)
                    | CellDeltaTracking => after_calls G [Uniform; Uniform; Uniform] (p_rng p)
                    end).
Proof.
  intros A G t fuel w p q H.
  assert (Hd : forall t d p1, sample_distance t p = Ok (d, p1) ->
    p_rng p1 = after_calls G [Uniform] (p_rng p) /\ drew p p1).
  { clear. intros t d p1 E. split; [|now apply sample_distance_ok in E].
    unfold sample_distance in E. oinv E. unfold exponential in E.
    cbn [after_calls after_call]. destruct (runif G (p_rng p)) as [u s'].
    injection E as _ <-. reflexivity. }
  assert (Hc : forall t s d (p1 q : particle A G), cross_surface t w s d p1 = Ok q ->
     p_rng q = p_rng p1 /\ (p_event q = surface_cross \/ p_event q = leak) /\ p_surface q <> None).
  { clear. intros t s d p1 q H. unfold cross_surface in H. oinv H. apply stream_ok in E.
    subst q. cbn. rewrite E. split; [reflexivity|]. split; [destruct (c_material x0); auto|discriminate]. }
  assert (Hk : forall t d (p1 q : particle A G), collide fuel t d p1 = Ok q ->
     exists c m nu a p2, in_material p1 c m /\ In (nu, a) (m_afracs m)
     /\ nu_interact fuel nu p2 = Ok q /\ p_energy p2 = p_energy p1 /\ p_type p2 = p_type p1
     /\ p_secondaries p2 = p_secondaries p1 /\ p_surface p2 = p_surface p1
     /\ p_rng p2 = after_calls G [Uniform] (p_rng p1)).
  { clear. intros t d p1 q H. unfold collide in H. oinv H. apply stream_ok in E.
    destruct x0 as [nu p2].
    pose proof (sample_nuclide_ok _ _ _ E0) as (D & c & m & a & Ec & Em & Hin).
    exists c, m, nu, a, p2. assert (Er : p_rng x = p_rng p1) by now rewrite E.
    split; [split; [rewrite <- Ec, E; reflexivity|exact Em]|]. split; [exact Hin|].
    split; [exact H|]. split; [rewrite D, E; reflexivity|]. split; [rewrite D, E; reflexivity|].
    split; [rewrite D, E; reflexivity|]. split; [rewrite D, E; reflexivity|].
    unfold sample_nuclide in E0. apply -> @noexcept_ok in E0. rewrite Ec, Em in E0.
    oinv E0. unfold p_unif in E0. cbn [after_calls after_call]. rewrite <- Er.
    destruct (runif G (p_rng x)) as [u s']. apply bind_ok in E0 as (sel & _ & E0).
    destruct sel as [nu0|]; [|discriminate]. injection E0 as _ <-. reflexivity. }
  destruct t; cbn [transport_step] in H.
  - unfold surface_step in H. apply bind_ok in H as ([d p1] & E & H). apply Hd in E as [E D].
    oinv H. destruct x0 as [s ds]. destruct (nltb A _ _).
    + apply Hk in H as (c0 & m & nu & a & p2 & M & Hin & H & E2 & E3 & E4 & E5 & E6).
      right. right. exists c0, m, nu, a, p2. rewrite E6, E, E2, E3, E4, E5.
      split; [destruct M as [M1 M2]; split; [rewrite <- M1, D; reflexivity|exact M2]|].
      rewrite D. auto 10.
    + apply Hc in H as [H E2]. left. split; [congruence|exact E2].
  - unfold delta_step in H. apply bind_ok in H as ([d p1] & E & H). apply Hd in E as [E D].
    oinv H. destruct x0 as [s ds]. destruct (nltb A _ _).
    + apply Hc in H as [H E2]. left. split; [congruence|exact E2].
    + oinv H. unfold bernoulli in H. destruct (runif G (p_rng p1)) as [u s'] eqn:Eu.
      assert (Es : s' = after_calls G [Uniform; Uniform] (p_rng p)).
      { change (after_calls G [Uniform; Uniform] (p_rng p))
          with (snd (runif G (after_calls G [Uniform] (p_rng p)))). rewrite <- E, Eu. reflexivity. }
      destruct (nltb A u _) eqn:Eb.
      * apply Hk in H as (c0 & m & nu & a & p2 & M & Hin & H & F2 & F3 & F4 & F5 & F6).
        right. right. exists c0, m, nu, a, p2. cbn [p_rng set_rng] in F6.
        rewrite F6, Es, F2, F3, F4, F5.
        split; [destruct M as [M1 M2]; split; [rewrite <- M1; cbn; rewrite D; reflexivity|exact M2]|].
        cbn. rewrite D. auto 10.
      * apply bind_ok in H as (p3 & Est & H). injection H as <-. apply stream_ok in Est. right. left. cbn.
        rewrite Est. cbn. split; [reflexivity|]. split; [reflexivity|]. split; [exact Es|].
        unfold get_material, get_cell in E2. destruct (p_cell p1) as [c1|] eqn:Ec1; [|discriminate].
        cbn [bind] in E2. destruct (c_material c1) as [m1|] eqn:Em1; [|discriminate].
        injection E2 as <-. exists c1, m1, (p_rng p1). do 2 eexists.
        split; [split; [rewrite <- Ec1, D; reflexivity|exact Em1]|].
        split; [rewrite <- D; eassumption|]. split; [rewrite <- D; eassumption|].
        rewrite Eu. exact Eb.
Qed.

Lemma C85_step_proof :
  forall (A : Arith) (G : Rng A) t fuel (w : world A) (p q : particle A G),
  transport_step t fuel w p = Ok q ->
  (* a crossing: one number, for the length of the flight *)
  p_rng q = after_calls G [Uniform] (p_rng p) /\ (p_event q = surface_cross \/ p_event q = leak)
  (* a virtual collision: one more for its acceptance *)
  \/ (t = CellDeltaTracking /\ p_event q = virtual_collision
      /\ p_rng q = after_calls G [Uniform; Uniform] (p_rng p))
  (* a collision: one more for the nuclide, and those of the interaction *)
  \/ (exists c m nu a p1, in_material p c m /\ In (nu, a) (m_afracs m)
      /\ nu_interact fuel nu p1 = Ok q /\ p_energy p1 = p_energy p /\ p_type p1 = p_type p
      /\ p_secondaries p1 = p_secondaries p /\ p_surface p1 = p_surface p
      /\ p_rng p1 = match t with
                    | SurfaceTracking => after_calls G [Uniform; Uniform] (p_rng p)
                    | CellDeltaTracking => after_calls G [Uniform; Uniform; Uniform] (p_rng p)
                    end).
Proof.
  intros A G t fuel w p q H. destruct (step_calls A G t fuel w p q H) as [(H1 & H2 & _)|[(H1 & H2 & H3 & _)|H3]]; auto.
Qed.

(** The generator of the program does not come back to a state soon. *)
Lemma calls_raws (A : Arith) l : forall s : rst (Minstd A),
  after_calls (Minstd A) l s = after_raw (Minstd A) (raws l) s.
Proof.
  induction l as [|c l IH]; intros s; [reflexivity|]. cbn [after_calls raws fold_right].
  rewrite IH. fold (raws l). unfold after_raw. destruct c.
  - rewrite N.add_comm, N.iter_add. reflexivity.
  - rewrite N.add_comm, N.iter_add. reflexivity.
Qed.
Lemma C85_new_numbers_proof :
  forall (A : Arith) (s : rst (Minstd A)) (before between : list call),
  (0 < raws between < cycle)%N ->
  after_calls (Minstd A) (before ++ between) s <> after_calls (Minstd A) before s.
Proof.
  intros A s before between H E. rewrite after_app, (calls_raws A between) in E.
  apply C60_period_proof in E as (c & Ec). unfold cycle in *. nia.
Qed.
