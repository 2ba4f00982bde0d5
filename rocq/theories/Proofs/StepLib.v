(** What a collision can change about a particle, for every arithmetic. *)
From Coq Require Import Bool String List ZArith NArith Lia.
From Verif Require Import Model.Num Model.Outcome Model.Rng Model.Xml Model.Std Model.Point
  Model.Surface Model.Types Model.Particle Model.Multigroup Model.Thermal Model.Continuous
  Model.Material Model.World Model.Perturbation Model.Estimator Model.Transport
  Proofs.OutcomeLib Proofs.StreamProofs.
Import ListNotations.

Section Step.
  Context {A : Arith} {G : Rng A}.
  Notation particle := (particle A G).
  Implicit Types p q : particle.

  (** [q] is [p] with another generator state. *)
  Definition drew p q : Prop := q = set_rng p (p_rng q).

  Lemma drew_refl p : drew p p.
  Proof. now destruct p. Qed.
  Lemma drew_trans p q r : drew p q -> drew q r -> drew p r.
  Proof. unfold drew. intros E1 E2. rewrite E2, E1. reflexivity. Qed.
  Lemma drew_unif p u q : p_unif p = (u, q) -> drew p q.
  Proof. unfold p_unif, drew. destruct (runif G (p_rng p)). now intros [= _ <-]. Qed.

  (** Zero added to every indirect effect (by Particle::Scatter). *)
  Definition plus_zero (l : list (perturbation A * num A)) : list (perturbation A * num A) :=
    map (fun x => (fst x, nadd A (snd x) (nofZ A 0))) l.

  (** [q] is where [p] is, with possibly more secondaries. *)
  Record in_place p q : Prop := mkInPlace {
    ip_position : p_position q = p_position p;
    ip_cell : p_cell q = p_cell p;
    ip_type : p_type q = p_type p;
    ip_surface : p_surface q = p_surface p;
    ip_indirect : exists k, p_indirect q = Nat.iter k plus_zero (p_indirect p);
    ip_secondaries : exists new, p_secondaries q = (p_secondaries p ++ new)%list
  }.

  Ltac place := constructor; [..|first [exists O; reflexivity|exists 1%nat; reflexivity]
                              |exists []; cbn; rewrite ?app_nil_r]; reflexivity.

  Lemma in_place_refl p : in_place p p.
  Proof. constructor; auto; [now exists O|]. exists []. now rewrite app_nil_r. Qed.
  Lemma in_place_trans p q r : in_place p q -> in_place q r -> in_place p r.
  Proof.
    intros [a b c d [i j] [n e]] [a' b' c' d' [i' j'] [n' e']]. constructor; try congruence.
    - exists (i' + i)%nat. rewrite j', j. unfold Nat.iter. now rewrite nat_rect_plus.
    - exists (n ++ n')%list. now rewrite e', e, app_assoc.
  Qed.
  Lemma in_place_drew p q : drew p q -> in_place p q.
  Proof. intros ->. place. Qed.

  (** A collision that ends with event [e]. *)
  Definition collided p q (e : event) : Prop := in_place p q /\ p_event q = e.

  Lemma collided_trans p q r e : in_place p q -> collided q r e -> collided p r e.
  Proof. intros H [H1 H2]. split; auto. now apply in_place_trans with q. Qed.

  Lemma fission_loop_place n m probs : forall p q,
    mg_fission_loop n m probs p = Ok q -> collided p q (p_event p).
  Proof.
    induction n as [|n IH]; intros p q H; cbn [mg_fission_loop] in H.
    - injection H as <-. split; auto. place.
    - destruct (p_unif p) as [u p1] eqn:E. apply drew_unif in E. oinv H.
      destruct x as [g|].
      + destruct (dir_isotropic G (p_rng p1)) as [d s]. unfold bank_secondary in H.
        destruct (rraw G _) as [seed s'].
        destruct (IH _ _ H) as [H1 H2]. rewrite E in H1, H2. split; auto.
        eapply in_place_trans; [|exact H1]. constructor; auto; cbn; [now exists O|eauto].
      + destruct (IH _ _ H) as [H1 H2]. rewrite E in H1, H2. split; auto.
        eapply in_place_trans; [|exact H1]. place.
  Qed.

  Lemma mg_interact_place m p q : mg_interact m p = Ok q ->
    in_place p q /\ (p_event q = capture \/ p_event q = scatter \/ p_event q = fission
                     \/ p_event q = p_event p).
  Proof.
    unfold mg_interact. destruct (p_unif p) as [u p1] eqn:E. apply drew_unif in E.
    intros H. oinv H. destruct x1 as [[| |]|].
    - injection H as <-. rewrite E. split; auto. place.
    - unfold mg_scatter in H. destruct (p_unif _) as [v p2] eqn:E3. apply drew_unif in E3.
      oinv H. rewrite E3, E in H. destruct x4; subst q.
      + unfold set_direction_isotropic. destruct (dir_isotropic G _). split; auto.
        place.
      + split; auto. place.
    - unfold mg_fission in H. oinv H. destruct (p_unif _) as [v p2] eqn:D3.
      apply drew_unif in D3. oinv H. apply fission_loop_place in H as [H1 H2].
      rewrite D3, E in H1, H2. split; auto. eapply in_place_trans; [|exact H1]. place.
    - injection H as <-. rewrite E. split; auto. place.
  Qed.

  Lemma co_fission_place n : forall p, collided p (co_fission_loop n p) (p_event p).
  Proof.
    induction n as [|n IH]; intros p; cbn [co_fission_loop].
    - split; auto. place.
    - destruct (dir_isotropic G (p_rng p)) as [d s]. unfold bank_secondary.
      destruct (rraw G _) as [seed s']. match goal with |- context [co_fission_loop n ?x] =>
        destruct (IH x) as [H1 H2] end.
      split; auto. eapply in_place_trans; [|exact H1]. constructor; auto; cbn; [now exists O|eauto].
  Qed.

  Lemma p_scatter_place p mu e : collided p (p_scatter p mu e) (p_event p).
  Proof.
    unfold p_scatter, p_unif. destruct (runif G _). split; auto. place.
  Qed.

  Lemma drew_scatter p q mu e : drew p q -> collided p (p_scatter q mu e) (p_event p).
  Proof.
    intros D. destruct (p_scatter_place q mu e) as [H1 H2]. split.
    - eapply in_place_trans; [apply in_place_drew; exact D|exact H1].
    - rewrite H2, D. reflexivity.
  Qed.

  Lemma free_gas_target_drew n y : forall p x mu q,
    free_gas_target n y p = Ok (x, mu, q) -> drew p q.
  Proof.
    induction n as [|n IH]; intros p x mu q H; cbn [free_gas_target] in H; [discriminate|].
    destruct (p_unif p) as [u1 p1] eqn:E1. destruct (p_unif p1) as [u2 p2] eqn:E2.
    destruct (p_unif p2) as [u3 p3] eqn:E3.
    assert (D3 : drew p p3).
    { apply drew_unif in E1, E2, E3. eauto using drew_trans. }
    match type of H with (let (_, _) := ?t in _) = _ => destruct t as [x' p4] eqn:E4 end.
    assert (D4 : drew p p4).
    { destruct (nltb A u3 _).
      - injection E4 as _ <-. exact D3.
      - destruct (p_unif p3) as [u4 p3'] eqn:E5. injection E4 as _ <-.
        apply drew_unif in E5. eauto using drew_trans. }
    destruct (p_unif p4) as [u5 p5] eqn:E5. destruct (p_unif p5) as [u6 p6] eqn:E6.
    assert (D6 : drew p p6).
    { apply drew_unif in E5, E6. eauto using drew_trans. }
    destruct (nleb A _ _).
    - apply IH in H. eauto using drew_trans.
    - injection H as _ _ <-. exact D6.
  Qed.

  Lemma free_gas_place fuel awr p q :
    free_gas_scatter fuel awr p = Ok q -> collided p q (p_event p).
  Proof.
    unfold free_gas_scatter. intros H. oinv H. destruct x1 as [[xx mu] p1].
    apply free_gas_target_drew in E1.
    destruct (p_unif p1) as [u1 p2] eqn:D1. destruct (p_unif p2) as [u2 p3] eqn:D2.
    destruct (p_unif p3) as [u3 p4] eqn:D3. destruct (free_gas_outgoing _ _ _ _ _ _ _ _).
    oinv H. assert (D : drew p p4).
    { apply drew_unif in D1, D2, D3. eauto using drew_trans. }
    subst q. now apply drew_scatter.
  Qed.

  Lemma sample_beta_loop_drew n t pa lo E Es T : forall p x q,
    sample_beta_loop n t pa lo E Es T p = Ok (x, q) -> drew p q.
  Proof.
    induction n as [|n IH]; intros p x q H; cbn in H; [discriminate|].
    destruct (p_unif p) as [u p1] eqn:E1. apply drew_unif in E1. oinv H.
    destruct (nleb A _ _).
    - oinv H. congruence.
    - apply IH in H. eauto using drew_trans.
  Qed.
  Lemma sample_beta_drew t p E T x q : sample_beta t p E T = Ok (x, q) -> drew p q.
  Proof.
    unfold sample_beta, choose_energy_index. intros H. oinv H. destruct x0 as [i p1].
    oinv E0. destruct (p_unif p) as [u p2] eqn:D. oinv E0. subst p2. apply drew_unif in D.
    oinv H. match goal with H : context [let (_, _) := ?y in _] |- _ => destruct y as [pa lo] end.
    apply sample_beta_loop_drew in H. eauto using drew_trans.
  Qed.
  Lemma sample_alpha_loop_drew n t pa lo b E T a1 a2 F1 F2 : forall p x q,
    sample_alpha_loop n t pa lo b E T a1 a2 F1 F2 p = Ok (x, q) -> drew p q.
  Proof.
    induction n as [|n IH]; intros p x q H; cbn in H; [discriminate|].
    destruct (p_unif p) as [u p1] eqn:E1. apply drew_unif in E1. oinv H.
    destruct (andb _ _).
    - oinv H. congruence.
    - apply IH in H. eauto using drew_trans.
  Qed.
  Lemma sample_alpha_drew t p b E T x q : sample_alpha t p b E T = Ok (x, q) -> drew p q.
  Proof.
    unfold sample_alpha, choose_beta_index. intros H. oinv H. destruct x0 as [i p1].
    oinv E0. destruct (p_unif p) as [u p2] eqn:D. oinv E0. subst p2. apply drew_unif in D.
    oinv H. destruct (alpha_limits _ _ _ _). oinv H.
    match goal with H : context [let (_, _) := ?y in _] |- _ => destruct y as [pa lo] end.
    oinv H. apply sample_alpha_loop_drew in H. eauto using drew_trans.
  Qed.
  Lemma th_scatter_place t p q : th_scatter t p = Ok q -> collided p q (p_event p).
  Proof.
    unfold th_scatter. intros H. oinv H. destruct x1 as [b p1]. oinv H. destruct x1 as [a p2].
    oinv H. apply sample_beta_drew in E1. apply sample_alpha_drew in E2.
    assert (D : drew p p2) by eauto using drew_trans. subst q.
    now apply drew_scatter.
  Qed.

  Lemma cr_interact_place fuel r p q : cr_interact fuel r p = Ok q ->
    in_place p q /\ p_event q = match r with CCapture _ => capture | CScatter _ _ _ => scatter
                                 | CFission _ _ => fission end.
  Proof.
    unfold cr_interact. intros H. oinv H. destruct r as [ev|ev tsl awr|ev nubar].
    - oinv H. subst q. split; auto. place.
    - oinv H. destruct x.
      + destruct tsl as [t|].
        * apply th_scatter_place in H as [H1 H2]. split; auto.
          eapply in_place_trans; [|exact H1]. place.
        * apply free_gas_place in H as [H1 H2]. split; auto.
          eapply in_place_trans; [|exact H1]. place.
      + apply free_gas_place in H as [H1 H2]. split; auto.
        eapply in_place_trans; [|exact H1]. place.
    - oinv H. destruct (p_unif _) as [u p2] eqn:D. apply drew_unif in D. oinv H. subst q.
      destruct (co_fission_place (N.to_nat x2) p2) as [H1 H2]. rewrite D in H1, H2 |- *.
      split; auto. eapply in_place_trans; [|exact H1]. place.
  Qed.

  Lemma co_interact_place fuel co : forall p q, co_interact fuel co p = Ok q ->
    in_place p q /\ (p_event q = capture \/ p_event q = scatter \/ p_event q = fission).
  Proof.
    induction fuel as [|fuel IH]; intros p q H; cbn [co_interact] in H; [discriminate|].
    destruct (p_unif p) as [u p1] eqn:D. apply drew_unif in D. oinv H.
    assert (P : in_place p p1) by now apply in_place_drew.
    destruct x0 as [r|].
    - apply cr_interact_place in H as [H1 H2]. split; [eauto using in_place_trans|].
      destruct r; auto.
    - apply IH in H as [H1 H2]. split; [eauto using in_place_trans|auto].
  Qed.

  Lemma nu_interact_place fuel nu p q : nu_interact fuel nu p = Ok q ->
    in_place p q /\ (p_event q = capture \/ p_event q = scatter \/ p_event q = fission
       \/ p_event q = p_event p /\ exists m, nu_at nu p = Ok (IMultigroup m)).
  Proof.
    unfold nu_interact. intros H. oinv H. destruct x.
    - apply mg_interact_place in H as [H1 [H2|[H2|[H2|H2]]]]; eauto 10.
    - apply co_interact_place in H as [H1 [H2|[H2|H2]]]; eauto 10.
  Qed.

  Lemma pick_nuclide_in l p : forall acc thr nu, pick_nuclide l p acc thr = Ok (Some nu) ->
    exists a, In (nu, a) l.
  Proof.
    induction l as [|[nu a] l IH]; intros acc thr x H; cbn [pick_nuclide] in H; [discriminate|].
    oinv H. destruct (nltb A _ _).
    - injection H as <-. exists a. now left.
    - destruct (IH _ _ _ H) as [b Hb]. exists b. now right.
  Qed.

  Lemma sample_nuclide_ok p nu q : sample_nuclide p = Ok (nu, q) ->
    drew p q /\ exists c m a, p_cell p = Some c /\ c_material c = Some m /\ In (nu, a) (m_afracs m).
  Proof.
    unfold sample_nuclide. intros H. oinv H. destruct (p_cell p) as [c|]; [|discriminate].
    destruct (c_material c) as [m|] eqn:Em; [|discriminate]. oinv H.
    destruct (p_unif p) as [u p1] eqn:D. apply drew_unif in D. oinv H.
    destruct x0 as [nu'|]; [|discriminate]. injection H as -> <-. split; auto.
    apply pick_nuclide_in in E0 as [a Ha]. exists c, m, a. auto.
  Qed.
End Step.
