(** What can stop a run: C89. *)
From Coq Require Import Bool String List Reals ZArith NArith Lra Lia SpecFloat.
From Flocq Require Import Core BinarySingleNaN Relative.
From Verif Require Import Model.Num Model.Outcome Model.Rng Model.Xml Model.Std Model.Point
  Model.Surface Model.Types Model.Bins Model.Field Model.Tables Model.Particle Model.Multigroup
  Model.Thermal Model.Continuous Model.Material Model.World Model.Perturbation Model.Estimator
  Model.Transport Model.Driver
  Spec.Vec Spec.RngSpec Spec.CellSpec Spec.TransportSpec Spec.DoubleSpec Spec.TroubleSpec
  Proofs.OutcomeLib Proofs.SafeLib Proofs.CellProofs Proofs.StreamProofs Proofs.StepLib
  Proofs.MaterialProofs Proofs.TransportProofs Proofs.WellPosed Proofs.EstimatorProofs Proofs.TallyProofs Proofs.AlikeProofs
  Proofs.SolverProofs Proofs.RealLib Proofs.FloatLib Proofs.FloatReal Proofs.DoubleBins Proofs.DoubleRandom.
Import ListNotations.

(** Tables. *)
Lemma vec_at_in {V} (l : list V) (i : N) : (i < N.of_nat (length l))%N ->
  exists v, vec_at l i = Ok v /\ In v l /\ nth_error l (N.to_nat i) = Some v.
Proof.
  intros H. unfold vec_at. rewrite (proj2 (N.ltb_lt _ _) H).
  destruct (nth_error l (N.to_nat i)) as [v|] eqn:E.
  - exists v. split; auto. split; auto. eapply nth_error_In; eauto.
  - apply nth_error_None in E. lia.
Qed.
Lemma group_at_in {V} (l : list V) n g : full n l -> (1 <= g <= n)%N -> (n < 2 ^ 64)%N ->
  exists v, group_at l g = Ok v /\ In v l /\ nth_error l (N.to_nat (g - 1)) = Some v.
Proof.
  intros F H B. unfold group_at. replace (sub64 g 1) with (g - 1)%N.
  - apply vec_at_in. unfold full in F. lia.
  - unfold sub64, wrap64. replace (g + (2 ^ 64 - 1))%N with (g - 1 + 1 * 2 ^ 64)%N by lia.
    rewrite N.mod_add by discriminate. rewrite N.mod_small; lia.
Qed.
Lemma cm1_at_total {A : Arith} (m : cmap A 1) k : m <> [] -> exists v, cm1_at m k = Ok v.
Proof.
  intros N. unfold cm1_at. cbn [cm_at].
  assert (K : map_upper None k m <> (None, None)).
  { assert (K : forall (l : list (num A * num A)) pr, (pr <> None \/ l <> []) ->
      map_upper pr k l <> (None, None)).
    { induction l as [|[k' v'] l IH]; intros pr [Hp|Hp]; cbn; try congruence.
      - destruct (nltb A k k'); [congruence|]. apply IH. left. congruence.
      - destruct (nltb A k k'); [congruence|]. apply IH. left. congruence. }
    apply K. now right. }
  change (cmap A 1) with (list (num A * num A)) in *.
  destruct (map_upper None k m) as [[[k1 v1]|] [[k2 v2]|]]; cbn [bind]; eauto. congruence.
Qed.
Lemma find_cell_none {A : Arith} (w : world A) x : 
  (exists c, find_cell w x = Ok c /\ first_cell w x c /\ In c (w_cells w))
  \/ (exists msg, find_cell w x = Throw msg) /\ forall c, In c (w_cells w) -> ~ inside c x.
Proof.
  destruct (find_cell w x) as [c|msg| | |] eqn:E.
  - left. exists c. apply find_cell_first in E. split; auto. split; auto. now apply first_cell_in in E.
  - right. split; [eauto|]. intros c Hc I. unfold find_cell in E.
    destruct (find _ _) eqn:F; [discriminate|]. apply (find_none _ _ F) in Hc.
    unfold cell_contains in Hc. enough (K : forallb (fun x0 => Bool.eqb (su_contains (fst x0) x) (snd x0))
      (c_senses c) = true) by congruence.
    apply forallb_forall. intros [s b] Hs. cbn. rewrite <- (I s b Hs). apply eqb_reflx.
  - unfold find_cell in E. now destruct (find _ _).
  - unfold find_cell in E. now destruct (find _ _).
  - unfold find_cell in E. now destruct (find _ _).
Qed.

Section Trouble.
  Context {A : Arith} {G : Rng A}.
  Notation particle := (particle A G).
  Implicit Types p q x : particle.
  Variables (usable countable : num A -> Prop).
  Hypothesis usable_selects : forall total (s : rst G), usable total ->
    nltb A (nmul A total (fst (runif G s))) total = true.
  Hypothesis zero_unusable : ~ usable (nofZ A 0).
  Hypothesis countable_counts : forall nu (s : rst G), countable nu ->
    exists n, ntoN A (nadd A nu (fst (runif G s))) = Some n.
  Variables (k : kind) (w : world A).
  Hypothesis W : tabulated_world k w.

  Definition sound p : Prop := p_type p = neutron /\ energy_of k (p_energy p).
  Definition situated p c m : Prop := in_material p c m /\ In c (w_cells w).

  (** *** Cross sections *)
  Lemma ev_at ev p e : ev_xs ev <> [] -> p_energy p = ContinuousE e -> exists v, ev_xs_at ev p = Ok v.
  Proof.
    intros N E. unfold ev_xs_at. rewrite E. cbn [get_continuous bind].
    destruct (cm1_at_total (ev_xs ev) e N) as [v Hv]. exists v. now rewrite Hv.
  Qed.
  Lemma reaction_at r p c e : point_reaction r -> p_energy p = ContinuousE e -> p_cell p = Some c ->
    (exists v, cr_xs r p = Ok v) /\ (exists v, cr_majorant r p = Ok v)
    /\ cr_modifies_total r p = Ok false.
  Proof.
    intros [N K] E Ec. destruct r as [ev|ev tsl awr|ev nubar]; cbn [cr_evaluation] in N;
      try (split; [exact (ev_at ev p e N E)|split; [exact (ev_at ev p e N E)|reflexivity]]).
    subst tsl.
    assert (S : forall T, exists v, scatter_xs_at ev awr p T = Ok v).
    { intros T'. unfold scatter_xs_at. destruct (ev_at ev p e N E) as [v Hv]. rewrite Hv.
      destruct (ev_is_valid ev T'); [eauto|]. unfold free_gas_valid, free_gas_adjustment.
      rewrite E. cbn [get_continuous bind].
      destruct (negb _); cbn [noexcept bind]; [eauto|].
      destruct (nleb A awr _); cbn [noexcept bind].
      - destruct (neqb A _ _); cbn [noexcept bind]; destruct (neqb A _ _); cbn [noexcept bind]; eauto.
      - destruct (nltb A e _); [|eauto].
        destruct (neqb A _ _); cbn [noexcept bind]; destruct (neqb A _ _); cbn [noexcept bind]; eauto. }
    unfold cr_xs, cr_majorant, get_cell. cbn [tsl_applies bind]. rewrite Ec. cbn [bind].
    split; [|split; [|reflexivity]].
    - destruct (S (field_at (c_temperature c) (p_position p))) as [v ->]. cbn. eauto.
    - destruct (S (field_upper (c_temperature c))) as [v ->]. cbn. eauto.
  Qed.
  Lemma fold_total {X} (f : X -> outcome (num A)) (h : num A -> X -> num A -> num A) l :
    (forall z, In z l -> exists v, f z = Ok v) ->
    forall acc, exists v, foldM (fun acc z => bind (f z) (fun y => Ok (h acc z y))) l acc = Ok v.
  Proof.
    induction l as [|z l IH]; intros H acc; cbn [foldM]; [eauto|].
    destruct (H z (or_introl eq_refl)) as [v ->]. cbn [bind]. apply IH. intros; apply H; now right.
  Qed.
  Lemma continuous_at co p c e : point_tables co -> p_energy p = ContinuousE e -> p_cell p = Some c ->
    (exists v, co_get_total co p = Ok v) /\ (exists v, co_get_majorant co p = Ok v).
  Proof.
    intros [N F] E Ec. rewrite Forall_forall in F.
    assert (M : any_modifies (co_reactions co) p = Ok false).
    { revert F. generalize (co_reactions co). induction l as [|r l IH]; intros F; auto. cbn.
      destruct (reaction_at r p c e (F r (or_introl eq_refl)) E Ec) as (_ & _ & ->). cbn.
      apply IH. intros; apply F; now right. }
    unfold co_get_total, co_get_majorant, get_cell. rewrite Ec. cbn [bind]. unfold co_at_temperature.
    rewrite M. cbn [bind]. destruct (ev_at (co_total co) p e N E) as [v Hv]. rewrite Hv.
    split.
    - destruct (_ && _); [cbn; eauto|]. unfold sum_reactions.
      destruct (fold_total (fun r => cr_xs r p) (fun acc _ y => nadd A acc y) (co_reactions co)) with (acc := nofZ A 0)
        as [v' Hv'].
      { intros r Hr. exact (proj1 (reaction_at r p c e (F r Hr) E Ec)). }
      rewrite Hv'. cbn. eauto.
    - destruct (_ && _); [cbn; eauto|]. unfold sum_reactions.
      destruct (fold_total (fun r => cr_majorant r p) (fun acc _ y => nadd A acc y) (co_reactions co)) with (acc := nofZ A 0)
        as [v' Hv'].
      { intros r Hr. exact (proj1 (proj2 (reaction_at r p c e (F r Hr) E Ec))). }
      rewrite Hv'. cbn. eauto.
  Qed.
  Lemma nu_at_data nu p i : data_for nu neutron i -> p_type p = neutron -> nu_at nu p = Ok i.
  Proof. unfold data_for, nu_at. intros H ->. now rewrite H. Qed.
  Lemma nuclide_at nu i p c : data_for nu neutron i -> data_of k i -> sound p -> p_cell p = Some c ->
    (exists v, nu_total nu p = Ok v) /\ (exists v, nu_majorant nu p = Ok v).
  Proof.
    intros D K [Tp En] Ec. unfold nu_total, nu_majorant. rewrite (nu_at_data nu p i D Tp). cbn [bind].
    destruct k as [n|], i as [mg|co]; try contradiction.
    - destruct (p_energy p) as [e|g] eqn:E; [contradiction|]. destruct K as [[_ B] Ft _ _ _].
      destruct (group_at_in _ n g Ft En B) as (v & Hv & _).
      unfold mg_get_majorant, mg_get_total. rewrite E. cbn [get_group bind]. rewrite Hv. cbn. eauto.
    - destruct (p_energy p) as [e|g] eqn:E; [|contradiction].
      destruct (continuous_at co p c e K E Ec) as [[v ->] [v' ->]]. cbn. eauto.
  Qed.
  Lemma totals_at p c m : sound p -> situated p c m ->
    (exists v, mat_total m p = Ok v) /\ (exists v, mat_majorant m p = Ok v).
  Proof.
    intros S [[Ec Em] Hc]. destruct (W c m Hc Em) as [_ D].
    unfold mat_total, mat_majorant, sum_afracs. split.
    - destruct (fold_total (fun y : nuclide A * num A => nu_total (fst y) p)
        (fun acc y v => nadd A acc (nmul A (snd y) v)) (m_afracs m)) with (acc := nofZ A 0) as [v Hv].
      { intros [nu a] Hy. destruct (D nu a Hy) as (i & Di & Ki).
        exact (proj1 (nuclide_at nu i p c Di Ki S Ec)). }
      rewrite Hv. cbn. eauto.
    - destruct (fold_total (fun y : nuclide A * num A => nu_majorant (fst y) p)
        (fun acc y v => nadd A acc (nmul A (snd y) v)) (m_afracs m)) with (acc := nofZ A 0) as [v Hv].
      { intros [nu a] Hy. destruct (D nu a Hy) as (i & Di & Ki).
        exact (proj2 (nuclide_at nu i p c Di Ki S Ec)). }
      rewrite Hv. cbn. eauto.
  Qed.
  Lemma mat_total_sees m p q : p_energy q = p_energy p -> p_position q = p_position p ->
    p_cell q = p_cell p -> p_type q = p_type p -> mat_total m q = mat_total m p.
  Proof.
    intros H1 H2 H3 H4. unfold mat_total, sum_afracs. f_equal. apply foldM_ext. intros s y _.
    destruct (sees p q (fst y) H1 H2 H3 H4) as [-> _]. reflexivity.
  Qed.

  (** *** Selecting a nuclide *)
  Lemma pick_total l p : forall acc thr total,
    foldM (fun acc y => bind (nu_total (fst y) p) (fun v => Ok (nadd A acc (nmul A (snd y) v)))) l acc = Ok total ->
    l <> [] -> nltb A thr total = true ->
    exists nu, pick_nuclide l p acc thr = Ok (Some nu).
  Proof.
    induction l as [|[nu a] l IH]; intros acc thr total H N T; [congruence|]. cbn [foldM fst snd] in H.
    cbn [pick_nuclide]. destruct (nu_total nu p) as [v| | | |]; try discriminate H. cbn [bind] in *.
    destruct (nltb A thr (nadd A acc (nmul A a v))) eqn:E; [eauto|]. destruct l as [|y l].
    - cbn in H. injection H as <-. rewrite T in E. discriminate E.
    - eapply IH; eauto. congruence.
  Qed.
  Lemma select_safe (T : Prop) p c m : sound p -> situated p c m ->
    (forall v, mat_total m p = Ok v -> ~ usable v -> T) ->
    safe T (sample_nuclide p) (fun y => exists nu a, fst y = nu /\ In (nu, a) (m_afracs m) /\ drew p (snd y)).
  Proof.
    intros S Si HT. destruct (totals_at p c m S Si) as [[v Hv] _].
    destruct (sample_nuclide p) as [[nu q]| | | |] eqn:E; cbn; auto.
    1:{ apply sample_nuclide_ok in E as (D & c' & m' & a & Ec & Em & Hn). destruct Si as [[Ec' Em'] _].
        exists nu, a. split; auto. split; auto. replace m with m' by congruence. exact Hn. }
    all: apply (HT v Hv); intros U; unfold sample_nuclide in E; destruct Si as [[Ec Em] _];
      rewrite Ec, Em, Hv in E; cbn [bind] in E; unfold p_unif in E;
      destruct (runif G (p_rng p)) as [u s] eqn:Eu; unfold mat_total in Hv; apply -> @noexcept_ok in Hv;
      (destruct (pick_total (m_afracs m) (set_rng p s) (nofZ A 0) (nmul A v u) v) as [nu Hn];
      [ unfold sum_afracs in Hv; rewrite <- Hv; apply foldM_ext; intros z y _;
        destruct (sees p (set_rng p s) (fst y) eq_refl eq_refl eq_refl eq_refl) as [-> _]; reflexivity
      | intros Z; rewrite Z in Hv; cbn in Hv; injection Hv as <-; exact (zero_unusable U)
      | replace u with (fst (runif G (p_rng p))) by (now rewrite Eu); now apply usable_selects
      | rewrite Hn in E; discriminate E ]).
  Qed.

  (** *** Collisions *)
  Variable perts : list (perturbation A).
  Definition newborn p : Prop := sound p /\ p_secondaries p = [].
  Definition good p : Prop :=
    sound p /\ List.Forall newborn (p_secondaries p) /\ map fst (p_indirect p) = perts.
  Lemma good_same p q : p_type q = p_type p -> p_energy q = p_energy p ->
    p_secondaries q = p_secondaries p -> map fst (p_indirect q) = map fst (p_indirect p) ->
    good p -> good q.
  Proof. unfold good, sound. intros -> -> -> ->. auto. Qed.
  Lemma good_drew p q : drew p q -> good p -> good q.
  Proof. intros D. apply good_same; rewrite D; reflexivity. Qed.
  Lemma good_energy p e : energy_of k e -> good p -> good (set_energy p e).
  Proof. intros E ((T & _) & R). split; [split; auto|exact R]. Qed.
  Lemma good_bank p d e s : energy_of k e -> good p -> good (bank_secondary (set_rng p s) d e).
  Proof.
    intros E (S & F & I). unfold bank_secondary. destruct (rraw G _) as [seed s'].
    split; [exact S|split; [|exact I]]. cbn. apply Forall_app. split; auto.
    constructor; auto. split; [split; auto|reflexivity].
  Qed.
  Lemma good_scatter p mu e : energy_of k e -> good p -> good (p_scatter p mu e).
  Proof.
    intros E H. unfold p_scatter, p_unif. destruct (runif G _) as [u s].
    apply good_energy; auto. revert H. apply good_same; auto. cbn. rewrite map_map. reflexivity.
  Qed.

  Lemma pick_group_range n (probs : list (num A)) : full n probs -> (n < 2 ^ 64)%N ->
    forall i g acc thr, (1 <= g)%N -> (g + N.of_nat i <= n + 1)%N ->
    exists sel, pick_group i g probs acc thr = Ok sel
      /\ forall g', sel = Some g' -> (1 <= g' <= n)%N.
  Proof.
    intros F B. induction i as [|i IH]; intros g acc thr L H; cbn [pick_group].
    - exists None. split; auto. discriminate.
    - destruct (group_at_in probs n g F ltac:(lia) B) as (v & -> & _). cbn [bind].
      destruct (nltb A _ _).
      + exists (Some g). split; auto. intros g' [= <-]. lia.
      + apply IH; lia.
  Qed.
  Lemma fission_loop_good n m (probs : list (num A)) : k = Groups n -> mg_max_group m = n ->
    full n probs -> (n < 2 ^ 64)%N ->
    forall i p, good p -> exists q, mg_fission_loop i m probs p = Ok q /\ good q.
  Proof.
    intros K M F B. induction i as [|i IH]; intros p H; cbn [mg_fission_loop]; [eauto|].
    destruct (p_unif p) as [u p1] eqn:E. apply drew_unif in E. pose proof (good_drew _ _ E H) as H1.
    destruct (pick_group_range n probs F B (N.to_nat (mg_max_group m)) 1 (nofZ A 0) u) as (sel & -> & S);
      [lia|lia|]. cbn [bind]. apply IH. destruct sel as [g|]; auto.
    destruct (dir_isotropic G (p_rng p1)) as [d s]. apply good_bank; auto. rewrite K. cbn. auto.
  Qed.
  Lemma yield_safe (T : Prop) nu p u p1 : p_unif p = (u, p1) -> (~ countable nu -> T) ->
    safe T (to_yield (nadd A nu u)) (fun _ => True).
  Proof.
    intros E HT. unfold to_yield. destruct (ntoN A (nadd A nu u)) eqn:N; cbn; auto.
    apply HT. intros C. unfold p_unif in E. destruct (countable_counts nu (p_rng p) C) as [n Hn].
    destruct (runif G (p_rng p)). injection E as -> _. cbn in Hn. congruence.
  Qed.
  Lemma pick_reaction_in (l : list (reaction * list (num A))) g n :
    (forall r xs, In (r, xs) l -> full n xs) -> (1 <= g <= n)%N -> (n < 2 ^ 64)%N ->
    forall acc thr, exists sel, pick_reaction l g acc thr = Ok sel
      /\ forall r, sel = Some r -> exists xs, In (r, xs) l.
  Proof.
    intros F L B. induction l as [|[r xs] l IH]; intros acc thr; cbn [pick_reaction].
    - exists None. split; auto. discriminate.
    - destruct (group_at_in xs n g (F r xs (or_introl eq_refl)) L B) as (v & -> & _). cbn [bind].
      destruct (nltb A _ _).
      + exists (Some r). split; auto. intros r' [= <-]. exists xs. now left.
      + destruct (IH (fun r xs H => F r xs (or_intror H)) (nadd A acc v) thr) as (sel & E & S).
        exists sel. split; auto. intros r' Hr. destruct (S r' Hr) as [ys Hy]. exists ys. now right.
  Qed.
  Lemma mg_safe (T : Prop) n nu mg p : k = Groups n -> group_tables n mg -> good p ->
    data_for nu neutron (IMultigroup mg) ->
    (forall v, nubar_of nu p v -> ~ countable v -> T) ->
    safe T (mg_interact mg p) good.
  Proof.
    intros K [[M B] Ft Fr Fs Ff] H Dn HT. unfold mg_interact.
    destruct (p_unif p) as [u p1] eqn:E. apply drew_unif in E. pose proof (good_drew _ _ E H) as H1.
    destruct (proj1 H) as [Tp En]. rewrite K in En. destruct (p_energy p) as [e|g] eqn:Ep; [contradiction|].
    cbn in En. assert (Ep1 : p_energy p1 = Group g) by (rewrite E; exact Ep).
    apply safe_noexcept. unfold mg_get_total. rewrite Ep1. cbn [get_group bind].
    destruct (group_at_in _ n g Ft En B) as (v & -> & _). cbn [noexcept bind].
    destruct (pick_reaction_in (mg_reactions mg) g n Fr En B (nofZ A 0) (nmul A u v)) as (sel & -> & Sel).
    cbn [bind]. destruct sel as [[| |]|]; [cbn [safe]| | |exact H1].
    - revert H1. now apply good_same.
    - destruct (Sel _ eq_refl) as [xs Hxs]. destruct (Fs xs Hxs) as (probs & Pr & F1 & F2).
      unfold mg_scatter. apply safe_noexcept.
      destruct (p_unif (set_event p1 scatter)) as [u2 p2] eqn:E2. apply drew_unif in E2.
      rewrite Pr. cbn [of_option bind]. replace (p_energy p2) with (@Group A g) by (rewrite E2; auto).
      cbn [get_group bind]. destruct (group_at_in probs n g F1 En B) as (gp & -> & Ig & _). cbn [bind].
      rewrite Forall_forall in F2.
      destruct (pick_group_range n gp (F2 gp Ig) B (N.to_nat (mg_max_group mg)) 1 (nofZ A 0) u2)
        as (sg & -> & Sg); [lia|lia|]. cbn [bind safe].
      assert (H2 : good p2) by (revert H1; apply good_same; rewrite E2; reflexivity).
      destruct sg as [g'|]; auto. unfold set_direction_isotropic.
      destruct (dir_isotropic G _) as [dd s].
      assert (H3 : good (set_energy p2 (Group g'))) by (apply good_energy; auto; rewrite K; cbn; auto).
      revert H3. now apply good_same.
    - destruct (Sel _ eq_refl) as [xs Hxs]. destruct (Ff xs Hxs) as (nubar & chi & Nb & Fn & Ch & F1 & F2).
      unfold mg_fission. apply safe_noexcept. cbn [p_energy set_event]. rewrite Ep1. cbn [get_group bind].
      rewrite Nb, Ch. cbn [of_option bind].
      destruct (group_at_in nubar n g Fn En B) as (nv & -> & _ & Nth). cbn [bind].
      destruct (p_unif (set_event p1 fission)) as [u2 p2] eqn:E2. pose proof (drew_unif _ _ _ E2) as D2.
      eapply safe_bind.
      { eapply yield_safe; [exact E2|]. intros NC. apply (HT nv); auto. exists (IMultigroup mg).
        split; auto. exists nubar, g. auto. }
      intros y _ _. destruct (group_at_in chi n g F1 En B) as (gp & -> & Ig & _). cbn [bind].
      rewrite Forall_forall in F2.
      destruct (fission_loop_good n mg gp K M (F2 gp Ig) B (N.to_nat y) p2) as (q & -> & Hq).
      { revert H1. apply good_same; rewrite D2; reflexivity. }
      exact Hq.
  Qed.

  Lemma free_gas_target_safe (T : Prop) n y : forall p,
    safe T (free_gas_target n y p) (fun r => drew p (snd r)).
  Proof.
    intros p. destruct (free_gas_target n y p) as [[[x mu] q]| | | |] eqn:E; cbn; auto.
    1: now apply free_gas_target_drew in E.
    all: exfalso; revert p E; induction n as [|n IH]; intros p E; cbn [free_gas_target] in E; [discriminate|];
      repeat match type of E with (let (_, _) := ?t in _) = _ => destruct t end;
      destruct (nleb A _ _); [now apply IH in E|discriminate].
  Qed.
  Lemma free_gas_safe (T : Prop) fuel awr p e c : p_energy p = ContinuousE e -> p_cell p = Some c ->
    k = Pointwise -> good p -> safe T (free_gas_scatter fuel awr p) good.
  Proof.
    intros E Ec K H. unfold free_gas_scatter. rewrite E. unfold get_cell. rewrite Ec. cbn [get_continuous bind].
    eapply safe_bind; [apply free_gas_target_safe|]. intros [[x mu] p1] _ D. cbn [snd] in D.
    destruct (p_unif p1) as [u1 p2] eqn:E1. destruct (p_unif p2) as [u2 p3] eqn:E2.
    destruct (p_unif p3) as [u3 p4] eqn:E3. apply drew_unif in E1, E2, E3.
    destruct (free_gas_outgoing _ _ _ _ _ _ _ _). cbn [safe]. apply good_scatter; [now rewrite K|].
    apply (good_drew p); auto. eauto using drew_trans.
  Qed.
  Lemma co_fission_good n : forall p, good p -> good (co_fission_loop n p).
  Proof.
    induction n as [|n IH]; intros p H; cbn [co_fission_loop]; auto.
    destruct (dir_isotropic G (p_rng p)) as [d s]. apply IH. apply good_bank; auto. exact (proj2 (proj1 H)).
  Qed.
  Lemma pick_creaction_in p c e : p_energy p = ContinuousE e -> p_cell p = Some c ->
    forall l, List.Forall point_reaction l -> forall acc thr,
    exists sel, pick_creaction l p acc thr = Ok sel /\ forall r, sel = Some r -> In r l.
  Proof.
    intros E Ec. induction l as [|r l IH]; intros F acc thr; cbn [pick_creaction].
    - exists None. split; auto. discriminate.
    - inversion F as [|r' l' Fr Fl]; subst.
      destruct (reaction_at r p c e Fr E Ec) as ([v ->] & _). cbn [bind]. destruct (nltb A _ _).
      + exists (Some r). split; auto. intros r' [= <-]. now left.
      + destruct (IH Fl (nadd A acc v) thr) as (sel & Es & S). exists sel. split; auto.
        intros r' Hr. right. auto.
  Qed.
  Lemma nubar_same nu p q v : p_energy q = p_energy p -> nubar_of nu q v -> nubar_of nu p v.
  Proof. intros E. unfold nubar_of. rewrite E. auto. Qed.
  Lemma co_safe (T : Prop) nu co c : k = Pointwise -> point_tables co ->
    data_for nu neutron (IContinuous co) ->
    forall fuel p, good p -> p_cell p = Some c -> 
    (forall v, nubar_of nu p v -> ~ countable v -> T) ->
    safe T (co_interact fuel co p) good.
  Proof.
    intros K PT Dn. induction fuel as [|fuel IH]; intros p H Ec HT; cbn [co_interact]; [exact I|].
    destruct (p_unif p) as [u p1] eqn:E. apply drew_unif in E. pose proof (good_drew _ _ E H) as H1.
    destruct (proj1 H) as [Tp En]. rewrite K in En. destruct (p_energy p) as [e|g] eqn:Ep; [|contradiction].
    assert (Ep1 : p_energy p1 = ContinuousE e) by (rewrite E; exact Ep).
    assert (Ec1 : p_cell p1 = Some c) by (rewrite E; exact Ec).
    destruct (continuous_at co p1 c e PT Ep1 Ec1) as [[v Hv] _].
    apply safe_noexcept. rewrite Hv. cbn [bind].
    destruct (pick_creaction_in p1 c e Ep1 Ec1 (co_reactions co) (proj2 PT) (nofZ A 0) (nmul A u v))
      as (sel & -> & Sel). cbn [bind]. destruct sel as [r|].
    - pose proof (Sel r eq_refl) as Hr. pose proof (proj2 PT) as F. rewrite Forall_forall in F.
      destruct (F r Hr) as [_ Kr]. unfold cr_interact. apply safe_noexcept. destruct r as [ev|ev tsl awr|ev nubar].
      + cbn. revert H1. now apply good_same.
      + subst tsl. cbn [tsl_applies bind]. eapply free_gas_safe; eauto.
      + destruct Kr as (tbl & -> & Nt). cbn [of_option bind p_energy set_event]. rewrite Ep1.
        cbn [get_continuous bind]. destruct (cm1_at_total tbl e Nt) as [nv Hnv]. rewrite Hnv. cbn [bind].
        destruct (p_unif (set_event p1 fission)) as [u2 p2] eqn:E2. pose proof (drew_unif _ _ _ E2) as D2.
        eapply safe_bind.
        { eapply yield_safe; [exact E2|]. intros NC. apply (HT nv); auto. exists (IContinuous co).
          split; auto. exists ev, tbl, e. auto. }
        intros y _ _. cbn [safe]. apply co_fission_good. revert H1. apply good_same; rewrite D2; reflexivity.
    - apply IH; auto. intros v' X. apply HT. revert X. apply nubar_same. congruence.
  Qed.
  Lemma nuclide_safe (T : Prop) nu i p c fuel : data_for nu neutron i -> data_of k i -> good p ->
    p_cell p = Some c -> (forall v, nubar_of nu p v -> ~ countable v -> T) ->
    safe T (nu_interact fuel nu p) good.
  Proof.
    intros D K H Ec HT. unfold nu_interact. rewrite (nu_at_data nu p i D (proj1 (proj1 H))).
    apply safe_noexcept. cbn [bind]. destruct k as [n|] eqn:Ek, i as [mg|co]; try contradiction.
    - eapply mg_safe; eauto.
    - eapply co_safe; eauto.
  Qed.

  (** *** Steps *)
  Lemma stream_good t p c m d : good p -> situated p c m ->
    exists q, stream t p d = Ok q /\ good q
      /\ q = set_position (set_indirect p (p_indirect q)) (padd (p_position p) (pscale (p_direction p) d)).
  Proof.
    intros H Si. destruct (totals_at p c m (proj1 H) Si) as [[v Hv] [v' Hv']]. destruct Si as [[Ec Em] Hc].
    assert (S : exists q, stream t p d = Ok q).
    { unfold stream. edestruct (mapM_total (fun x : perturbation A * num A => bind (pert_stream t (fst x) p d)
        (fun s => Ok (fst x, nadd A (snd x) s))) (p_indirect p)) as [l ->]; [|cbn; eauto].
      intros x _. unfold pert_stream, collision_density, get_material, get_cell. rewrite Ec. cbn [bind].
      rewrite Em. cbn [of_option bind]. destruct (existsb _ _); [|cbn; eauto].
      destruct t; rewrite ?Hv, ?Hv'; cbn; eauto. }
    destruct S as [q Hq]. exists q. split; auto. pose proof (stream_ok _ _ _ _ Hq) as F. split; auto.
    revert H. apply good_same; try (rewrite F; reflexivity).
    unfold stream in Hq. apply -> @noexcept_ok in Hq. apply bind_ok in Hq as (l & El & [= <-]). cbn.
    apply mapM_ok in El. clear F. revert El. generalize (p_indirect p). intros l0 El.
    induction El as [|x1 y l1 l2 E1 _ IH]; auto. cbn. apply bind_ok in E1 as (z & _ & [= <-]). cbn. now f_equal.
  Qed.

  Definition placed p : Prop := is_alive p = true -> exists c m, situated p c m.
  Section Step.
    Variables (t : tracking) (p : particle) (c : cell A) (m : material A) (T : Prop).
    Hypothesis Hp : good p.
    Hypothesis Sp : situated p c m.
    Hypothesis HT1 : forall d x v, sample_distance t p = Ok (d, x) ->
      mat_total m (set_position p (padd (p_position p) (pscale (p_direction p) d))) = Ok v ->
      ~ usable v -> T.
    Hypothesis HT2 : forall nu a v, In (nu, a) (m_afracs m) -> nubar_of nu p v -> ~ countable v -> T.
    Hypothesis HT3 : forall s d, nearest_surface c (p_position p) (p_direction p) = Ok (s, d) ->
      (forall c', In c' (w_cells w) ->
         ~ inside c' (padd (p_position p) (pscale (p_direction p) (nadd A d nudge)))) -> T.

    Lemma situated_drew q : drew p q -> situated q c m.
    Proof. intros D. destruct Sp as [[E1 E2] E3]. split; auto. split; auto. rewrite D. exact E1. Qed.
    Lemma distance_good : exists d q, sample_distance t p = Ok (d, q) /\ drew p q.
    Proof.
      destruct (totals_at p c m (proj1 Hp) Sp) as [[v Hv] [v' Hv']]. destruct Sp as [[Ec Em] Hc].
      unfold sample_distance, collision_density, get_material, get_cell. rewrite Ec. cbn [bind].
      rewrite Em. cbn [of_option bind].
      destruct t; rewrite ?Hv, ?Hv'; cbn [noexcept bind]; destruct (exponential G _ _) as [d s];
        exists d, (set_rng p s); split; auto; reflexivity.
    Qed.
    Lemma nearest_good : exists s d, nearest_surface c (p_position p) (p_direction p) = Ok (s, d).
    Proof.
      destruct Sp as [[Ec Em] Hc]. destruct (W c m Hc Em) as [N _]. unfold nearest_surface.
      destruct (c_senses c) as [|[s b] l]; [congruence|]. cbv zeta. eauto.
    Qed.
    Lemma cross_safe q s d : drew p q -> nearest_surface c (p_position p) (p_direction p) = Ok (s, d) ->
      safe T (cross_surface t w s d q) good.
    Proof.
      intros D N. unfold cross_surface.
      destruct (stream_good t q c m (nadd A d nudge) (good_drew _ _ D Hp) (situated_drew q D))
        as (q1 & -> & Hq1 & F). cbn [bind].
      destruct (find_cell_none w (p_position q1)) as [(c' & -> & _)|[[msg ->] No]]; cbn.
      - revert Hq1. now apply good_same.
      - apply (HT3 s d N). intros c' Hc'. specialize (No c' Hc'). rewrite F, D in No. exact No.
    Qed.
    Lemma collide_safe fuel d x q : sample_distance t p = Ok (d, x) -> drew p q ->
      safe T (collide fuel t d q) good.
    Proof.
      intros Sd D. unfold collide. pose proof (situated_drew q D) as Sq.
      destruct (stream_good t q c m d (good_drew _ _ D Hp) Sq) as (q1 & -> & Hq1 & F). cbn [bind].
      assert (S1 : situated q1 c m).
      { destruct Sq as [[E1 E2] E3]. split; auto. split; auto. rewrite F. exact E1. }
      eapply safe_bind.
      { apply select_safe with (c := c) (m := m); [exact (proj1 Hq1)|exact S1|].
        intros v Hv. apply (HT1 d x v Sd). rewrite <- Hv. symmetry. apply mat_total_sees;
          rewrite F, D; reflexivity. }
      intros [nu q2] _ (nu' & a & E & Ha & Dq). cbn [fst snd] in E, Dq. subst nu'.
      destruct S1 as [[E1 E2] E3]. destruct (W c m E3 E2) as [_ Da]. destruct (Da nu a Ha) as (i & Di & Ki).
      apply (nuclide_safe T nu i q2 c fuel Di Ki).
      - now apply (good_drew q1).
      - rewrite Dq. exact E1.
      - intros v Nv. apply (HT2 nu a v Ha). revert Nv. apply nubar_same. rewrite Dq, F, D. reflexivity.
    Qed.
    Lemma step_good fuel : safe T (transport_step t fuel w p) good.
    Proof.
      destruct distance_good as (d & q & Sd & D). destruct nearest_good as (s & ds & N).
      assert (Ec : p_cell q = Some c) by exact (proj1 (proj1 (situated_drew q D))).
      assert (N' : nearest_surface c (p_position q) (p_direction q) = Ok (s, ds)) by (rewrite D; exact N).
      assert (C : forall q', drew p q' -> safe T (collide fuel t d q') good) by (intros; eapply collide_safe; eauto).
      assert (X : safe T (cross_surface t w s ds q) good) by now apply cross_safe.
      destruct (totals_at q c m (proj1 (good_drew _ _ D Hp)) (situated_drew q D)) as [[v Hv] [v' Hv']].
      destruct t; cbn [transport_step].
      - unfold surface_step. rewrite Sd. cbn [bind]. unfold get_cell. rewrite Ec. cbn [bind].
        rewrite N'. cbn [bind]. destruct (nltb A d ds); auto.
      - unfold delta_step. rewrite Sd. cbn [bind]. unfold get_material, get_cell. rewrite Ec. cbn [bind].
        rewrite N'. cbn [bind]. destruct (nltb A ds d); auto.
        destruct Sp as [[_ Em] _]. rewrite Em. cbn [of_option bind]. rewrite Hv, Hv'. cbn [bind].
        destruct (bernoulli G _ _) as [[|] s'].
        + apply C. eapply drew_trans; [exact D|reflexivity].
        + assert (D' : drew p (set_rng q s')) by (eapply drew_trans; [exact D|reflexivity]).
          destruct (stream_good CellDeltaTracking (set_rng q s') c m d (good_drew _ _ D' Hp)
            (situated_drew _ D')) as (q1 & -> & Hq1 & F). cbn. revert Hq1. now apply good_same.
    Qed.
    Lemma step_placed fuel q : transport_step t fuel w p = Ok q -> placed q.
    Proof.
      intros H Al. apply step_event in H. destruct Sp as [[Ec Em] Hc].
      destruct H as [c1 m1 s c' _ _ _ _ _ Fc Ec' Ev|c1 m1 [E1 E2] _ Ec' _ _ _
        |c1 m1 _ [E1 E2] _ _ Ec' _ _|c1 m1 nu a [E1 E2] _ _ _ Ec' _ _ _].
      - destruct (c_material c') as [m'|] eqn:Em'.
        + exists c', m'. split; [split; auto|]. now apply first_cell_in in Fc.
        + unfold is_alive in Al. rewrite Ev in Al. discriminate.
      - exists c, m. replace c1 with c in Ec' by congruence. split; [split; auto|auto].
      - exists c, m. replace c1 with c in Ec' by congruence. split; [split; auto|auto].
      - exists c, m. replace c1 with c in Ec' by congruence. split; [split; auto|auto].
    Qed.
    Lemma step_safe fuel : safe T (transport_step t fuel w p) (fun q => good q /\ placed q).
    Proof. apply safe_and; [apply step_good|apply step_placed]. Qed.
  End Step.
End Trouble.

(** *** Scoring *)
Lemma mapM_combine_safe {X Y Z} (T : Prop) (Q : X -> Y -> Prop) (R : X -> Z -> Prop)
    (f : X * Y -> outcome Z) l l' : Forall2 Q l l' ->
  (forall a b, In a l -> Q a b -> safe T (f (a, b)) (fun z => T \/ R a z)) ->
  safe T (mapM f (combine l l')) (fun r => T \/ Forall2 R l r).
Proof.
  induction 1 as [|a b l l' Hq F IH]; intros H; cbn [combine mapM]; [right; constructor|].
  eapply safe_bind; [apply H; auto; now left|]. intros z _ Hz.
  eapply safe_bind; [apply IH; intros; apply H; auto; now right|]. intros r _ Hr. cbn.
  destruct Hz, Hr; auto.
Qed.

Section Scoring.
  Context {A : Arith} {G : Rng A}.
  Notation particle := (particle A G).
  Implicit Types p q : particle.

  Definition within (sc : scorable A) (pd : pending A) : Prop :=
    List.Forall (fun ix : N * num A => (fst ix < N.of_nat (length (sc_scores sc)))%N
      /\ (fst ix < N.of_nat (length (sc_squares sc)))%N) pd.
  Definition proxied (e : estimator A) (px : est_proxy A) : Prop :=
    within (es_scorable e) (fst px) /\ Forall2 (fun sn pd => within (sn_scorable sn) pd) (es_sens e) (snd px).
  Definition all_proxied (ss : estimator_set A) pxs := Forall2 proxied (ss_estimators ss) pxs.

  Lemma has_bin_dec (sc : scorable A) p : has_bin sc p \/ ~ has_bin sc p.
  Proof.
    unfold has_bin. destruct (pbins_index _ _ _) as [i| | | |];
      try (right; intros (j & Hj & _); discriminate).
    destruct (N.lt_decidable i (N.of_nat (length (sc_scores sc)))) as [H|H];
      [destruct (N.lt_decidable i (N.of_nat (length (sc_squares sc)))) as [H'|H']|].
    - left. eauto.
    - right. intros (j & [= <-] & _ & X). auto.
    - right. intros (j & [= <-] & X & _). auto.
  Qed.
  Lemma pending_within sc i x : (i < N.of_nat (length (sc_scores sc)))%N ->
    (i < N.of_nat (length (sc_squares sc)))%N ->
    forall pd, within sc pd -> within sc (pending_add i x pd).
  Proof.
    intros H1 H2. induction pd as [|[j y] pd IH]; intros F; cbn.
    - repeat constructor; auto.
    - inversion F as [|a b F1 F2]; subst. destruct (i <? j)%N; [constructor; auto|].
      destruct (j <? i)%N; constructor; auto. now apply IH.
  Qed.
  Lemma proxy_safe (T : Prop) sc score pd p : (~ has_bin sc p -> T) -> within sc pd ->
    safe T (proxy_score (sc_bins sc) score pd p) (fun pd' => T \/ within sc pd').
  Proof.
    intros HT F. unfold proxy_score. destruct (neqb A _ _); [right; exact F|].
    destruct (has_bin_dec sc p) as [(i & -> & H1 & H2)|N].
    - right. now apply pending_within.
    - specialize (HT N). destruct (pbins_index _ _ _) as [i| | | |]; cbn; auto.
  Qed.

  Section Scored.
    Variables (ss : estimator_set A) (perts : list (perturbation A)) (T : Prop).
    Hypothesis Sens : forall e sn, In e (ss_estimators ss) -> In sn (es_sens e) ->
      exists pert, In pert perts /\ pt_id pert = sn_pert sn.

    Lemma score_safe p pxs : map fst (p_indirect p) = perts ->
      (forall e, In e (ss_estimators ss) -> ~ has_bin (es_scorable e) p -> T) ->
      (forall e sn, In e (ss_estimators ss) -> In sn (es_sens e) -> ~ has_bin (sn_scorable sn) p -> T) ->
      all_proxied ss pxs ->
      safe T (set_proxy_score ss pxs p) (fun r => T \/ all_proxied ss r).
    Proof.
      intros I HT1 HT2 F. unfold set_proxy_score. eapply mapM_combine_safe; [exact F|].
      intros e px He [P1 P2]. unfold est_proxy_score. cbn [fst snd]. apply safe_noexcept.
      eapply safe_bind; [apply proxy_safe; [eauto|exact P1]|]. intros own _ Hown.
      eapply safe_bind.
      { apply mapM_combine_safe with (R := fun sn pd => within (sn_scorable sn) pd) (1 := P2).
        intros sn pd Hsn Pd. cbn [fst snd]. unfold sens_score, get_indirect.
        destruct (Sens e sn He Hsn) as (pert & Hp & Id).
        destruct (find (fun x => Nat.eqb (pt_id (fst x)) (sn_pert sn)) (p_indirect p)) as [y|] eqn:Fd.
        - cbn [bind]. apply proxy_safe; eauto.
        - exfalso. rewrite <- I in Hp. apply in_map_iff in Hp as (y & <- & Hy).
          apply (find_none _ _ Fd) in Hy. apply Nat.eqb_neq in Hy. auto. }
      intros subs _ Hs. cbn. destruct Hown, Hs; auto. right. split; auto.
    Qed.
    Lemma new_proxied : all_proxied ss (new_set_proxy ss).
    Proof.
      unfold all_proxied, new_set_proxy. clear. induction (ss_estimators ss) as [|e l IH]; constructor; auto.
      split; [constructor|]. cbn. induction (es_sens e); cbn [map]; constructor; auto. constructor.
    Qed.
    Lemma commit_within pd : forall sc, within sc pd -> exists r, sc_commit sc pd = Ok r.
    Proof.
      induction pd as [|[i x] pd IH]; intros sc F; cbn; [eauto|]. inversion F as [|a b [F1 F2] F3]; subst.
      cbn [fst snd] in F1, F2. unfold add_at_N.
      rewrite (proj2 (N.ltb_lt _ _) F1), (proj2 (N.ltb_lt _ _) F2).
      destruct (add_at_total x (sc_scores sc) (N.to_nat i)) as [l1 E1]; [lia|].
      destruct (add_at_total (nmul A x x) (sc_squares sc) (N.to_nat i)) as [l2 E2]; [lia|].
      rewrite E1. cbn [bind]. rewrite E2. cbn [bind]. apply IH.
      assert (L1 : length l1 = length (sc_scores sc)).
      { assert (E : add_at_N i x (sc_scores sc) = Ok l1)
          by (unfold add_at_N; now rewrite (proj2 (N.ltb_lt _ _) F1)).
        now apply add_at_N_nth in E. }
      assert (L2 : length l2 = length (sc_squares sc)).
      { assert (E : add_at_N i (nmul A x x) (sc_squares sc) = Ok l2)
          by (unfold add_at_N; now rewrite (proj2 (N.ltb_lt _ _) F2)).
        now apply add_at_N_nth in E. }
      unfold within. cbn. rewrite L1, L2. exact F3.
    Qed.
    Lemma commit_safe pxs : T \/ all_proxied ss pxs -> safe T (set_commit ss pxs) (fun _ => True).
    Proof.
      intros [HT|F]; [destruct (set_commit ss pxs); cbn; auto|].
      assert (K : exists r, set_commit ss pxs = Ok r).
      2: { destruct K as [r ->]. exact I. }
      unfold set_commit. unfold all_proxied in F.
      edestruct (mapM_total (fun x => est_commit (fst x) (snd x)) (combine (ss_estimators ss) pxs))
        as [r Hr]; [|rewrite Hr; cbn; eauto].
      intros [e px] Hin. assert (P : proxied e px).
      { revert Hin. clear - F. induction F as [|a b l l' Hab F IH]; [contradiction|].
        intros [[= <- <-]|H]; auto. }
      destruct P as [P1 P2]. unfold est_commit. cbn [fst snd].
      destruct (commit_within (fst px) (es_scorable e) P1) as [own ->]. cbn [bind].
      edestruct (mapM_total (fun sp => bind (sc_commit (sn_scorable (fst sp)) (snd sp))
        (fun s => Ok (mkSens s (sn_surface (fst sp)) (sn_pert (fst sp))))) (combine (es_sens e) (snd px)))
        as [l Hl]; [|rewrite Hl; cbn; eauto].
      intros [sn pd] Hs. assert (P : within (sn_scorable sn) pd).
      { revert Hs. clear - P2. induction P2 as [|a b l l' Hab F IH]; [contradiction|].
        intros [[= <- <-]|H]; auto. }
      cbn [fst snd]. destruct (commit_within pd (sn_scorable sn) P) as [s ->]. cbn. eauto.
    Qed.
  End Scored.
End Scoring.

(** *** Histories *)
Section Histories.
  Context {A : Arith} {G : Rng A}.
  Notation particle := (particle A G).
  Implicit Types p q x : particle.
  Variables (usable countable : num A -> Prop).
  Hypothesis usable_selects : forall total (s : rst G), usable total ->
    nltb A (nmul A total (fst (runif G s))) total = true.
  Hypothesis zero_unusable : ~ usable (nofZ A 0).
  Hypothesis countable_counts : forall nu (s : rst G), countable nu ->
    exists n, ntoN A (nadd A nu (fst (runif G s))) = Some n.
  Variables (k : kind) (dr : driver (A := A)).
  Hypothesis Tab : tabulated k dr.
  Notation w := (dr_world dr).
  Notation perts := (dr_perts dr).

  Variable ss : estimator_set A.
  Hypothesis Al : alike (dr_init dr) ss.
  Lemma has_bin_alike (sc sc' : scorable A) p : alike_sc sc sc' -> has_bin sc p -> has_bin sc' p.
  Proof. intros [_ B L1 L2]. unfold has_bin. now rewrite B, L1, L2. Qed.
  Lemma alike_est e : In e (ss_estimators ss) ->
    exists e0, In e0 (ss_estimators (dr_init dr)) /\ alike_es e0 e.
  Proof.
    enough (K : forall l l', Forall2 alike_es l l' -> In e l' -> exists e0, In e0 l /\ alike_es e0 e)
      by exact (K _ _ Al).
    clear. induction 1 as [|a b l l' H F IH]; [contradiction|]. intros [<-|Hin].
    - exists a. split; auto. now left.
    - destruct (IH Hin) as (e0 & He & Ha). exists e0. split; auto. now right.
  Qed.
  Lemma alike_sens (e0 e : estimator A) sn : alike_es e0 e -> In sn (es_sens e) ->
    exists sn0, In sn0 (es_sens e0) /\ alike_sn sn0 sn.
  Proof.
    intros [_ _ F]. revert F. generalize (es_sens e0) (es_sens e).
    induction 1 as [|a b l l' H F IH]; [contradiction|]. intros [<-|Hin].
    - exists a. split; auto. now left.
    - destruct (IH Hin) as (s0 & Hs & Ha). exists s0. split; auto. now right.
  Qed.

  Section One.
    Variable p0 : particle.
    Hypothesis New : newborn k p0.
    Definition trouble : Prop := astray dr p0 \/ no_number dr p0 usable countable \/ no_bin dr p0.
    Notation T := trouble.

    Lemma step_trouble fuel p : good k perts p -> placed w p -> under_way dr p0 p -> is_alive p = true ->
      safe T (transport_step (dr_tracking dr) fuel w p)
        (fun q => good k perts q /\ placed w q /\ under_way dr p0 q).
    Proof.
      intros H P U Live. destruct (P Live) as (c & m & S).
      eapply safe_impl.
      { eapply step_safe with (usable := usable) (countable := countable) (c := c) (m := m) (T := T);
          eauto using (tab_world _ _ Tab).
        - intros d x v Sd Hv N. right. left. eapply No_total; eauto. exact (proj1 S).
        - intros nu a v Ha Hv N. right. left. eapply No_yield; eauto. exact (proj1 S).
        - intros s d N No. left. eapply Arrives_nowhere; eauto. exact (proj1 (proj1 S)). }
      { auto. }
      intros q E [G1 G2]. split; auto. split; auto. destruct U as (c0 & F & R). exists c0. split; auto.
      eapply Reach_step; eauto.
    Qed.
    Lemma scored p pxs : good k perts p -> under_way dr p0 p -> T \/ all_proxied ss pxs ->
      T \/ safe T (set_proxy_score ss pxs p) (fun r => T \/ all_proxied ss r).
    Proof.
      intros (_ & _ & I) U [HT|F]; [now left|]. right.
      apply score_safe with (perts := perts); auto.
      - intros e sn He Hs. destruct (alike_est e He) as (e0 & He0 & Ae).
        destruct (alike_sens e0 e sn Ae Hs) as (sn0 & Hs0 & [_ Ep _]). rewrite Ep.
        exact (tab_sens _ _ Tab e0 sn0 He0 Hs0).
      - intros e He N. right. right. destruct (alike_est e He) as (e0 & He0 & [_ Ae _]).
        apply (No_bin_estimator dr p0 p e0); auto. intros X. apply N. revert X. now apply has_bin_alike.
      - intros e sn He Hs N. right. right. destruct (alike_est e He) as (e0 & He0 & Ae).
        destruct (alike_sens e0 e sn Ae Hs) as (sn0 & Hs0 & [_ _ Asn]).
        apply (No_bin_sensitivity dr p0 p e0 sn0); auto. intros X. apply N. revert X. now apply has_bin_alike.
    Qed.
    (** Once there is a reason nothing more has to be shown. *)
    Definition safe' {X} (o : outcome X) (P : X -> Prop) : Prop := T \/ safe T o P.
    Lemma safe'_bind {X Y} (o : outcome X) (f : X -> outcome Y) P Q :
      safe' o P -> (forall y, o = Ok y -> P y -> safe' (f y) Q) -> safe' (bind o f) Q.
    Proof.
      intros [H|H] K; [now left|]. destruct o as [x| | | |]; cbn in *; try (now left); [|right; exact I].
      now apply K.
    Qed.
    Lemma safe'_noexcept {X} (o : outcome X) P : safe' o P -> safe' (noexcept o) P.
    Proof. intros [H|H]; [now left|right]. now apply safe_noexcept. Qed.

    Notation J := (all_proxied ss).
    Lemma loop_trouble fuel : forall pxs p, good k perts p -> placed w p -> under_way dr p0 p -> J pxs ->
      safe' (transport_loop (set_proxy_score ss) (dr_tracking dr) fuel w pxs p)
        (fun r => J (fst r) /\ good k perts (snd r) /\ under_way dr p0 (snd r)).
    Proof.
      induction fuel as [|fuel IH]; intros pxs p H P U Hj; cbn [transport_loop];
        destruct (is_alive p) eqn:Live; try (right; cbn; auto; fail).
      eapply safe'_bind; [right; now apply step_trouble|]. intros q _ (Hq & Pq & Uq).
      eapply safe'_bind; [apply scored; auto|]. intros pxs' _ [HT|Hj']; [now left|]. auto.
    Qed.
    Lemma transport_trouble fuel pxs b : newborn k b -> begins dr p0 b -> J pxs ->
      safe' (transport (set_proxy_score ss) (dr_tracking dr) fuel w pxs (set_perturbations perts b))
        (fun r => J (fst r) /\ good k perts (snd r) /\ under_way dr p0 (snd r)).
    Proof.
      intros [S N] B Hj. unfold transport. apply safe'_noexcept.
      change (p_position (set_perturbations perts b)) with (p_position b).
      destruct (find_cell_none w (p_position b)) as [(c & -> & F & Hc)|[_ No]].
      2: { left. left. eapply Begins_nowhere; eauto. }
      cbn [bind]. destruct (c_material c) as [m|] eqn:Em.
      2: { left. left. eapply Begins_in_void; eauto. }
      apply loop_trouble; auto.
      - split; [exact S|split].
        + cbn. rewrite N. constructor.
        + cbn. rewrite map_map. apply map_id.
      - intros _. exists c, m. split; auto. split; auto.
      - destruct B as [->|(y & (c0 & F0 & R) & Hy)].
        + exists c. split; auto. constructor.
        + exists c0. split; auto. eapply Reach_child; eauto.
    Qed.
    Lemma bank_trouble fuel : forall pxs bank, 
      List.Forall (fun b => newborn k b /\ begins dr p0 b) bank -> J pxs ->
      safe' (bank_loop (set_proxy_score ss) dr fuel pxs bank) J.
    Proof.
      induction fuel as [|fuel IH]; intros pxs bank F Hj; cbn [bank_loop];
        destruct (rev bank) as [|b front] eqn:Er; try (right; cbn; auto; fail).
      assert (F' : List.Forall (fun b => newborn k b /\ begins dr p0 b) (b :: front)).
      { rewrite <- Er. now apply Forall_rev. }
      inversion F' as [|? ? [Nb Bb] Ff]; subst.
      eapply safe'_bind; [now apply transport_trouble|]. intros [pxs' q] _ (Hj' & (_ & Sq & _) & Uq).
      cbn [fst snd] in *. apply IH; auto. apply Forall_app. split; [|now apply Forall_rev].
      apply Forall_forall. intros x Hx. split.
      - rewrite Forall_forall in Sq. auto.
      - right. eauto.
    Qed.
  End One.

  Lemma start_newborn i : newborn k (history_start (G := G) dr i).
  Proof.
    unfold history_start, source_sample. destruct (sample_direction _ _) as [d s].
    destruct (rraw G s) as [z s']. split; [split; cbn|reflexivity].
    - exact (tab_type _ _ Tab).
    - exact (tab_energy _ _ Tab).
  Qed.
  Lemma history_trouble fuel i : let o := run_history (G := G) dr fuel ss i in
    o = OutOfFuel \/ (exists r, o = Ok r) \/ trouble (history_start (G := G) dr i).
  Proof.
    cbv zeta. unfold run_history. set (p0 := history_start dr i).
    assert (S : safe' p0 (bind (bank_loop (set_proxy_score ss) dr fuel (new_set_proxy ss) [p0])
      (fun px => set_commit ss px)) (fun _ => True)).
    { eapply safe'_bind.
      - apply bank_trouble; [|apply new_proxied]. constructor; auto. split; [apply start_newborn|now left].
      - intros px _ Hj. right. apply commit_safe. now right. }
    destruct S as [S|S]; auto. apply safe_out in S as [S|[(r & S & _)|S]]; eauto.
  Qed.
End Histories.

(** *** Workers *)
Section Workers.
  Context {A : Arith} {G : Rng A}.
  Variables (usable countable : num A -> Prop).
  Hypothesis usable_selects : forall total (s : rst G), usable total ->
    nltb A (nmul A total (fst (runif G s))) total = true.
  Hypothesis zero_unusable : ~ usable (nofZ A 0).
  Hypothesis countable_counts : forall nu (s : rst G), countable nu ->
    exists n, ntoN A (nadd A nu (fst (runif G s))) = Some n.
  Variables (k : kind) (dr : driver (A := A)).
  Hypothesis Tab : tabulated k dr.
  Variable fuel : nat.

  Definition going (wk : worker (A := A)) : Prop :=
    match wk with
    | Idle e | Done e => alike (dr_init dr) e
    | Busy e i => alike (dr_init dr) e /\ (i < dr_batchsize dr)%N
    | Failed o => o = OutOfFuel \/ exists i, (i < dr_batchsize dr)%N
        /\ trouble usable countable dr (history_start (G := G) dr i)
    end.
  Lemma worker_going c wk : going wk -> going (snd (worker_step (G := G) dr fuel c wk)).
  Proof.
    destruct wk as [e|e i|e|o]; cbn [worker_step snd]; auto.
    - intros H. destruct (N.leb_spec (dr_batchsize dr) c); cbn; auto.
    - intros [H L].
      destruct (history_trouble usable countable usable_selects zero_unusable countable_counts
        k dr Tab e H fuel i) as [E|[[r E]|E]].
      + rewrite E. now left.
      + rewrite E. cbn. eapply alike_trans; [exact H|]. eapply run_history_keeps_shape; eauto.
      + destruct (run_history dr fuel e i) as [r| | | |] eqn:R; cbn; eauto.
        eapply alike_trans; [exact H|]. eapply run_history_keeps_shape; eauto.
  Qed.
  Lemma update_Forall {V} (Q : V -> Prop) v : Q v -> forall l i, List.Forall Q l -> List.Forall Q (update_nth i v l).
  Proof.
    intros Hv. induction l as [|y l IH]; intros [|i] F; cbn; auto; inversion F; subst; constructor; auto.
  Qed.
  Lemma run_going schedule : forall sv, List.Forall going (sv_workers sv) ->
    List.Forall going (sv_workers (run_schedule (G := G) dr fuel sv schedule)).
  Proof.
    induction schedule as [|i schedule IH]; intros sv F; cbn; auto. apply IH. unfold solver_step.
    destruct (nth_error (sv_workers sv) i) as [wk|] eqn:E; auto.
    destruct (worker_step dr fuel (sv_counter sv) wk) as [c wk'] eqn:Ew. cbn.
    apply update_Forall; auto. replace wk' with (snd (worker_step (G := G) dr fuel (sv_counter sv) wk))
      by (now rewrite Ew).
    apply worker_going. rewrite Forall_forall in F. apply F. eapply nth_error_In; eauto.
  Qed.
  Lemma run_trouble counter schedule o :
    stopped (run_schedule (G := G) dr fuel (solver_start dr counter) schedule) o ->
    o = OutOfFuel \/ exists i, (i < dr_batchsize dr)%N
      /\ trouble usable countable dr (history_start (G := G) dr i).
  Proof.
    intros H. assert (F : List.Forall going (sv_workers (solver_start dr counter))).
    { apply Forall_forall. intros wk Hin. apply repeat_spec in Hin. subst wk. apply alike_refl. }
    apply (run_going schedule) in F. rewrite Forall_forall in F. exact (F _ H).
  Qed.
End Workers.

(** *** Doubles *)
Local Open Scope R_scope.
Lemma double_selects L total (s : mstate) : usable_double total ->
  nltb (F64 L) (nmul (F64 L) total (fst (runif (Minstd (F64 L)) s))) total = true.
Proof.
  intros (D & F & B). pose proof (double_is64 _ D F) as R. set (r := value total) in *.
  destruct (unif64 L s) as (u & Hu & U1 & U2).
  change (powerRZ 2 (-1000)) with (powerRZ (IZR radix2) (-1000)) in B. rewrite <- bpow_powerRZ in B.
  pose proof (bpow_gt_0 radix2 (-1000)) as P. pose proof (bpow_gt_0 radix2 (-32)) as P32.
  assert (Ru : 0 < r * u <= r - r * bpow radix2 (-32)).
  { split; [apply Rmult_lt_0_compat; lra|]. replace (r - r * bpow radix2 (-32)) with (r * (1 - bpow radix2 (-32))) by ring.
    apply Rmult_le_compat_l; lra. }
  assert (Fr : format64 r) by exact (is64_format _ _ R).
  assert (Rp : 0 < r) by lra.
  assert (P32r : 0 < r * bpow radix2 (-32)) by now apply Rmult_lt_0_compat.
  assert (Big : Rabs (rnd (r * u)) < big).
  { apply Rle_lt_trans with (Rabs r); [|exact (is64_big _ _ R)]. rewrite !Rabs_pos_eq; [|lra|apply rnd_nonneg; lra].
    apply rnd_le_format; auto. lra. }
  cbn [nltb nmul F64]. rewrite (is64_ltb _ _ _ _ (is64_mul _ _ _ _ R Hu Big) R). apply Rlt_bool_true.
  destruct (Rle_or_lt (bpow radix2 (-1022)) (r * u)) as [K|K].
  - pose proof (rnd_rel (r * u)) as E. rewrite Rabs_pos_eq in E by lra. specialize (E K).
    apply Rabs_le_inv in E. rewrite u53_val in E.
    assert (V : bpow radix2 (-32) = / 4294967296) by reflexivity. rewrite V in Ru, P32r. nra.
  - apply Rle_lt_trans with (bpow radix2 (-1022)).
    + apply rnd_le_format; [apply bpow_format; lia|lra].
    + apply Rlt_le_trans with (2 := B). apply bpow_lt. lia.
Qed.
Lemma double_zero : ~ usable_double (f64_ofZ 0).
Proof.
  intros (_ & _ & H). change (value (f64_ofZ 0)) with 0%R in H.
  assert (0 < powerRZ 2 (-1000)) by (apply powerRZ_lt; lra). lra.
Qed.
Lemma double_counts L nu (s : mstate) : countable_double nu ->
  exists n, ntoN (F64 L) (nadd (F64 L) nu (fst (runif (Minstd (F64 L)) s))) = Some n.
Proof.
  intros (D & F & B). pose proof (double_is64 _ D F) as R. set (r := value nu) in *.
  destruct (unif64 L s) as (u & Hu & U1 & U2). pose proof (bpow_gt_0 radix2 (-32)) as P32.
  change (powerRZ 2 53) with (powerRZ (IZR radix2) 53) in B. rewrite <- bpow_powerRZ in B.
  assert (S : 0 <= r + u <= bpow radix2 54).
  { split; [lra|]. change 54%Z with (1 + 53)%Z. rewrite bpow_plus.
    assert (1 <= bpow radix2 53) by (cbn; lra). change (bpow radix2 1) with 2. lra. }
  assert (Big : Rabs (rnd (r + u)) < big).
  { apply rnd_small with 54%Z; [lia|]. rewrite Rabs_pos_eq; lra. }
  pose proof (is64_add _ _ _ _ R Hu Big) as X.
  eexists. apply (is64_toN _ _ X). split; [apply rnd_nonneg; lra|].
  apply Rle_lt_trans with (bpow radix2 54).
  - apply rnd_le_format; [apply bpow_format; lia|lra].
  - cbn. lra.
Qed.

Lemma C89_double_proof :
  forall (L : Libm) (k : kind) (dr : driver (A := F64 L)) (fuel : nat) (counter : N) (schedule : list nat) o,
  tabulated k dr ->
  stopped (run_schedule (G := Minstd (F64 L)) dr fuel (solver_start dr counter) schedule) o ->
  o = OutOfFuel
  \/ exists i, (i < dr_batchsize dr)%N /\
     let p := history_start (G := Minstd (F64 L)) dr i in
     astray dr p \/ no_number dr p usable_double countable_double \/ no_bin dr p.
Proof.
  intros L k dr fuel counter schedule o Tab H.
  exact (run_trouble (G := Minstd (F64 L)) usable_double countable_double (double_selects L) double_zero
    (double_counts L) k dr Tab fuel counter schedule o H).
Qed.

(** *** Exact arithmetic *)
Lemma real_selects (G : Rng XRa) total (s : rst G) : valid_rng G -> usable_real total ->
  nltb XRa (nmul XRa total (fst (runif G s))) total = true.
Proof.
  intros V (r & -> & Hr). destruct (V s) as (u & -> & Hu). cbn. apply Rltb_true. nra.
Qed.
Lemma real_counts (G : Rng XRa) nu (s : rst G) : valid_rng G -> countable_real nu ->
  exists n, ntoN XRa (nadd XRa nu (fst (runif G s))) = Some n.
Proof.
  intros V (r & -> & Hr). destruct (V s) as (u & -> & Hu). change (powerRZ 2 53) with (2 ^ 53) in Hr.
  cbn [nadd ntoN XRa xadd xtoN]. rewrite Rleb_false by lra. rewrite Rleb_false by (cbn; lra). eauto.
Qed.
Lemma C89_exact_proof :
  forall (G : Rng XRa) (k : kind) (dr : driver (A := XRa)) (fuel : nat) (counter : N) (schedule : list nat) o,
  valid_rng G -> tabulated k dr ->
  stopped (run_schedule (G := G) dr fuel (solver_start dr counter) schedule) o ->
  o = OutOfFuel
  \/ exists i, (i < dr_batchsize dr)%N /\
     let p := history_start (G := G) dr i in
     astray dr p \/ no_number dr p usable_real countable_real \/ no_bin dr p.
Proof.
  intros G k dr fuel counter schedule o V Tab H.
  refine (run_trouble (G := G) usable_real countable_real _ _ _ k dr Tab fuel counter schedule o H).
  - intros. now apply real_selects.
  - intros (r & [= <-] & Hr). lra.
  - intros. now apply real_counts.
Qed.
