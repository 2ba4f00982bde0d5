(** Sensitivities of a beam through an absorber: C88. *)
From Coq Require Import Bool String List Reals ZArith NArith Lra Lia Permutation.
From Coquelicot Require Import Coquelicot.
From Verif Require Import Model.Num Model.Outcome Model.Rng Model.Xml Model.Std Model.Point
  Model.Surface Model.Types Model.Bins Model.Field Model.Particle Model.Multigroup Model.Thermal
  Model.Continuous Model.Material Model.World Model.Perturbation Model.Estimator Model.Transport
  Model.Driver
  Spec.Vec Spec.GeometrySpec Spec.CellSpec Spec.DirectionSpec Spec.RngSpec Spec.SumSpec
  Spec.MultigroupSpec Spec.MaterialSpec Spec.TransportSpec Spec.HistorySpec Spec.EstimatorSpec
  Spec.SolverSpec Spec.FrequencySpec Spec.PerturbSpec Spec.BeamSpec Spec.SensSpec
  Proofs.OutcomeLib Proofs.RealLib Proofs.RngProofs Proofs.CellProofs Proofs.WellPosed Proofs.HistoryProofs
  Proofs.EstimatorProofs Proofs.TallyProofs Proofs.SolverProofs Proofs.ResultProofs
  Proofs.PerturbProofs Proofs.FrequencyProofs Proofs.BeamProofs Proofs.GeometryProofs
  Proofs.CrossingProofs Proofs.SampleProblem Proofs.SampleTally Proofs.SampleBeam.
Import ListNotations.
Local Open Scope R_scope.

Lemma Forall2_in {T U : Type} (R : T -> U -> Prop) l l' :
  Forall2 R l l' -> Forall2 (fun a b => In a l /\ R a b) l l'.
Proof.
  intros F. assert (K : forall all, incl l all -> Forall2 (fun a b => In a all /\ R a b) l l').
  { induction F as [|a b l l' H F IH]; intros all I; constructor.
    - split; [apply I; now left|exact H].
    - apply IH. intros z Hz. apply I. now right. }
  apply K, incl_refl.
Qed.
Lemma scaled_mean c xs : mean (map (fun x => c * x) xs) = c * mean xs.
Proof.
  unfold mean. rewrite map_length.
  assert (E : Rsum (map (fun x => c * x) xs) = c * Rsum xs).
  { induction xs as [|x xs IH]; cbn [map Rsum fold_right] in *; [lra|]. rewrite IH. lra. }
  rewrite E. unfold Rdiv. ring.
Qed.
Lemma scaled_variance c xs : variance (map (fun x => c * x) xs) = c * c * variance xs.
Proof.
  unfold variance. rewrite scaled_mean, map_length, map_map. set (m := mean xs). clearbody m.
  assert (E : Rsum (map (fun x => (c * x - c * m) * (c * x - c * m)) xs)
    = c * c * Rsum (map (fun x => (x - m) * (x - m)) xs)).
  { induction xs as [|x xs IH]; cbn [map Rsum fold_right] in *; [lra|]. rewrite IH. ring. }
  rewrite E. unfold Rdiv. ring.
Qed.
Lemma scaled_deviation c xs : sqrt (variance (map (fun x => c * x) xs)) = Rabs c * sqrt (variance xs).
Proof.
  rewrite scaled_variance. rewrite sqrt_mult_alt by nra.
  rewrite <- (sqrt_Rsqr_abs c). reflexivity.
Qed.

Section Sens.
  Context (G : Rng XRa) (V : valid_rng G) (X : Ext XRa) (Gs : list N) (dr : @driver XRa)
    (o v : vec) (g : N) (s : surf XRa) (L rate : R) (B : beam X Gs dr o v g s L rate)
    (c : cell XRa) (m : material XRa) (x k : R)
    (Fc : first_cell (dr_world dr) (pt o) c) (Em : c_material c = Some m)
    (Ab : absorption X Gs g (m_afracs m) x) (Ek : nudge (A := XRa) = Fin k)
    (Nd : NoDup (map pt_id (dr_perts dr))).

  Definition beam_weight (pert : perturbation XRa) : R :=
    if existsb (fun y => Nat.eqb (nu_id (fst y)) (nu_id (pt_nuclide pert))) (m_afracs m)
    then 1 / x - (L + k) else 0.
  Lemma absorption_unique l y z : absorption X Gs g l y -> absorption X Gs g l z -> y = z.
  Proof.
    intros H1 H2.
    set (p := new_particle (G := Minstd XRa) (pt o) (pt v) (Group g) neutron 1 (Some c)).
    rewrite <- (absorbed (Minstd XRa) X Gs dr o v g s L rate B _ _ p H1 eq_refl eq_refl).
    now rewrite <- (absorbed (Minstd XRa) X Gs dr o v g s L rate B _ _ p H2 eq_refl eq_refl).
  Qed.

  Lemma beam_weighted (e : estimator XRa) pert i j evs : In pert (dr_perts dr) ->
    history (G := G) dr j evs ->
    history_total (sc_bins (es_scorable e)) (weighted_crossing (es_surface e) (pt_id pert)) i evs
    = Fin (beam_weight pert * (if sees v g s e i && reach G dr L rate j then 1 else 0)).
  Proof.
    intros Hp H. destruct (beam_history G V X Gs dr o v g s L rate B j evs H)
      as (u & q & Eu & -> & (fuel & c' & Fc' & Eq & Fl) & Cases).
    rewrite (first_cell_fun _ _ _ _ Fc' Fc) in *. clear c' Fc'.
    destruct (beam_effect G X Gs dr o v g s L rate B j fuel c m q pert Hp Nd Fc Em Eq Fl) as (y & Ey & Hy).
    apply entry_effect in Ey.
    assert (R1 : transmitted (dr_tracking dr) rate L u <-> reach G dr L rate j = true).
    { rewrite (reach_true G V), Eu. split; [eauto|]. intros (u' & [= <-] & K). exact K. }
    unfold history_total, weighted_crossing, crossing. cbn [filter].
    destruct Cases as [(Tr & Ev & Su & Di & En)|(Tr & Ev)].
    - rewrite (proj1 R1 Tr), andb_true_r. destruct (Hy Ev) as (x' & k' & Ab' & Ek' & _ & H1 & H2).
      rewrite (absorption_unique _ _ _ Ab' Ab) in *. rewrite Ek in Ek'. injection Ek' as <-.
      assert (Ew : y = beam_weight pert).
      { unfold beam_weight. destruct (existsb _ _) eqn:Ex.
        - apply H1. now apply existsb_contains.
        - apply H2. rewrite <- existsb_contains. rewrite Ex. discriminate. }
      unfold in_bin, sees. rewrite Di, En. unfold crossed.
      destruct (pbins_index _ _ _) as [jj| | | |]; cbn [map xsum fold_right];
        try (rewrite andb_false_r; cbn; f_equal; lra).
      destruct (N.eqb jj (N.of_nat i)); cbn [map xsum fold_right];
        [|rewrite andb_false_r; cbn; f_equal; lra].
      rewrite Ey, Ew, Ev, Su, Nat.eqb_sym, andb_true_r.
      destruct (Nat.eqb (es_surface e) (su_id s)); cbn; f_equal; lra.
    - destruct (reach G dr L rate j) eqn:Er; [exfalso; apply Tr, R1; reflexivity|]. rewrite andb_false_r.
      destruct (in_bin _ _ _); cbn [map xsum fold_right]; [|cbn; f_equal; lra].
      unfold crossed. rewrite Ey, Ev. destruct (p_surface q); cbn; f_equal; lra.
  Qed.
End Sens.

Lemma C88_value_proof :
  forall (G : Rng XRa) (X : Ext XRa) Gs (dr : @driver XRa) o v g s (L rate : R) c m (x k : R)
         fuel schedule,
  valid_rng G -> beam X Gs dr o v g s L rate ->
  first_cell (dr_world dr) (pt o) c -> c_material c = Some m ->
  absorption X Gs g (m_afracs m) x -> nudge (A := XRa) = Fin k ->
  (dr_batchsize dr + dr_threads dr <= 2 ^ 64)%N -> (0 < dr_threads dr)%N -> (0 < dr_batchsize dr)%N ->
  blank_set (dr_init dr) -> unique_names (dr_init dr) ->
  ss_weight (dr_init dr) = Fin (IZR (Z.of_N (dr_batchsize dr))) ->
  NoDup (map pt_id (dr_perts dr)) ->
  (forall e sn, In e (ss_estimators (dr_init dr)) -> In sn (es_sens e) ->
     own_sensitivity (dr_perts dr) e sn) ->
  let sv := run_schedule (G := G) dr fuel (solver_start dr 0) schedule in
  List.Forall succeeded (sv_workers sv) ->
  exists r, solver_result dr sv = Ok r
    /\ Forall2 (fun e e' : estimator XRa => Forall2 (fun sn sn' : sensitivity XRa =>
         forall pert i, In pert (dr_perts dr) -> pt_id pert = sn_pert sn ->
         (i < length (sc_scores (es_scorable e)))%nat ->
         (i < length (sc_scores (sn_scorable sn)))%nat ->
         (* what is printed for the sensitivity is a multiple of what is printed for its
            estimator *)
         exists mu dev effect, reported (es_scorable e') (ss_weight r) i mu dev
           /\ reported (sn_scorable sn') (ss_weight r) i (effect * mu) (Rabs effect * dev)
           /\ (contains_nuclide m (pt_nuclide pert) -> effect = 1 / x - (L + k))
           /\ (~ contains_nuclide m (pt_nuclide pert) -> effect = 0))
         (es_sens e) (es_sens e'))
       (ss_estimators (dr_init dr)) (ss_estimators r).
Proof.
  intros G X Gs dr o v g s L rate c m x k fuel schedule V B Fc Em Ab Ek few T Nz Bl Un Ew Nd Own sv Su.
  destruct (C57_result_proof G dr fuel schedule few T Bl Un Su) as (r & hs & Er & Fh & [W Fe]).
  exists r. split; [exact Er|].
  pose proof (Forall2_length _ _ _ Fh) as Lh. rewrite below_length in Lh.
  assert (Nh : hs <> []) by (intros ->; cbn in Lh; lia).
  assert (Iw : INR (length hs) = IZR (Z.of_N (dr_batchsize dr))).
  { rewrite <- Lh, INR_IZR_INZ. f_equal. lia. }
  rewrite W, Ew, <- Iw. clear Er Su sv W Ew Lh Un.
  unfold blank_set in Bl. revert Bl Own Fe.
  generalize (ss_estimators (dr_init dr)) as ls, (ss_estimators r) as lr. intros ls lr Bl Own Fe.
  induction Fe as [|e e' l l' S F IH]; constructor.
  2:{ apply IH; intros; [apply Bl; now right|eapply Own; eauto; now right]. }
  clear IH F. destruct (Bl e (or_introl eq_refl)) as [Be Bs]. destruct S as [_ Sc Ss].
  assert (Own' : forall sn, In sn (es_sens e) -> own_sensitivity (dr_perts dr) e sn)
    by (intros; eapply Own; eauto; now left). clear Own Bl l l'.
  assert (Ss' : Forall2 (fun sn sn' => In sn (es_sens e) /\ scored_sensitivity hs sn sn') (es_sens e) (es_sens e')).
  { now apply Forall2_in. }
  clear Ss. rename Ss' into Ss.
  induction Ss as [|sn sn' l l' [Hin [_ _ Sn]] F IH]; constructor; [|exact IH]. clear IH F.
  intros pert i Hp Ep Hi Hi'. destruct (Own' sn Hin) as (Es & Eb & _).
  set (test := fun j => sees v g s e i && reach G dr L rate j).
  set (xs := map (fun j => if test j then 1 else 0) (below (dr_batchsize dr))).
  assert (P1 : printed (es_scorable e') (Fin (INR (length hs))) i xs).
  { apply (scored_printed _ _ _ _ i _ Sc); auto. unfold xs, test. rewrite map_map.
    clear - Fh B V. induction Fh as [|j h l k H F IH]; [reflexivity|]. cbn [map].
    rewrite IH. f_equal. rewrite crossing_count. f_equal.
    apply (beam_score G V X Gs dr o v g s L rate B e i j h H). }
  assert (P2 : printed (sn_scorable sn') (Fin (INR (length hs))) i
                 (map (fun y => beam_weight L m x k pert * y) xs)).
  { apply (scored_printed _ _ _ _ i _ Sn); auto. unfold xs, test. rewrite !map_map.
    rewrite Es, Eb, <- Ep. clear - Fh B V Hp Nd Fc Em Ab Ek.
    induction Fh as [|j h l k' H F IH]; [reflexivity|]. cbn [map]. rewrite IH. f_equal.
    apply (beam_weighted G V X Gs dr o v g s L rate B c m x k Fc Em Ab Ek Nd); auto. }
  destruct P1 as [M1 D1]. destruct P2 as [M2 D2]. rewrite scaled_mean in M2.
  rewrite scaled_deviation, map_length in D2.
  exists (mean xs), (sqrt (variance xs) / sqrt (INR (length xs))), (beam_weight L m x k pert).
  split; [now split|]. split; [split; [exact M2|]|].
  - rewrite D2. do 2 f_equal. unfold Rdiv. ring.
  - unfold beam_weight. rewrite <- existsb_contains. destruct (existsb _ _); split; intros K; congruence.
Qed.

Lemma attenuation_derive d x L : is_derive (attenuation d x L) 0 (- (d * L) * exp (- (d * x * L))).
Proof. unfold attenuation. auto_derive; [exact I|]. rewrite Rplus_0_r. ring. Qed.

Lemma Forall2_and {T U : Type} (R S : T -> U -> Prop) l l' :
  Forall2 R l l' -> Forall2 S l l' -> Forall2 (fun a b => R a b /\ S a b) l l'.
Proof. induction 1; intros H1; inversion H1; subst; constructor; auto. Qed.

Lemma C88_untouched_partial_proof :
  forall (G : Rng XRa) (X : Ext XRa) Gs (dr : @driver XRa) o v g s (L rate : R) c m fuel schedule,
  valid_rng G -> beam X Gs dr o v g s L rate ->
  first_cell (dr_world dr) (pt o) c -> c_material c = Some m ->
  (dr_batchsize dr + dr_threads dr <= 2 ^ 64)%N -> (0 < dr_threads dr)%N -> (0 < dr_batchsize dr)%N ->
  blank_set (dr_init dr) -> unique_names (dr_init dr) ->
  ss_weight (dr_init dr) = Fin (IZR (Z.of_N (dr_batchsize dr))) ->
  NoDup (map pt_id (dr_perts dr)) ->
  (forall e sn, In e (ss_estimators (dr_init dr)) -> In sn (es_sens e) ->
     own_sensitivity (dr_perts dr) e sn) ->
  let sv := run_schedule (G := G) dr fuel (solver_start dr 0) schedule in
  List.Forall succeeded (sv_workers sv) ->
  exists r, solver_result dr sv = Ok r
    /\ Forall2 (fun e e' : estimator XRa => Forall2 (fun sn sn' : sensitivity XRa =>
         forall pert i, In pert (dr_perts dr) -> pt_id pert = sn_pert sn ->
         (i < length (sc_scores (es_scorable e)))%nat ->
         (i < length (sc_scores (sn_scorable sn)))%nat ->
         (* missing: perturbations of nuclides of the absorber *)
         ~ contains_nuclide m (pt_nuclide pert) ->
         reported (sn_scorable sn') (ss_weight r) i 0 0)
         (es_sens e) (es_sens e'))
       (ss_estimators (dr_init dr)) (ss_estimators r).
Proof.
  intros G X Gs dr o v g s L rate c m fuel schedule V B Fc Em few T Nz Bl Un Ew Nd Own sv Su.
  destruct (bm_absorber _ _ _ _ _ _ _ _ _ B) as (c1 & m1 & D & x & Fc1 & Em1 & _ & Ab & _).
  rewrite (first_cell_fun _ _ _ _ Fc1 Fc) in *. rewrite Em in Em1. injection Em1 as <-.
  destruct (bm_void _ _ _ _ _ _ _ _ _ B) as (k & _ & Ek & _).
  destruct (C88_value_proof G X Gs dr o v g s L rate c m x k fuel schedule V B Fc Em Ab Ek few T Nz Bl Un
    Ew Nd Own Su) as (r & Er & F).
  exists r. split; [exact Er|]. clear - F. induction F as [|e e' l l' H F IH]; constructor; auto.
  clear IH F. induction H as [|sn sn' l1 l2 H F IH]; constructor; auto. clear IH F.
  intros pert i Hp Ep Hi Hi' Nc. destruct (H pert i Hp Ep Hi Hi') as (mu & dev & effect & _ & R2 & _ & E0).
  rewrite (E0 Nc), Rmult_0_l, Rabs_R0, Rmult_0_l in R2. exact R2.
Qed.

Lemma C88_error_proof :
  forall (X : Ext XRa) Gs (dr : @driver XRa) o v g s (L rate : R) c m (d x k : R) fuel schedule,
  beam X Gs dr o v g s L rate ->
  first_cell (dr_world dr) (pt o) c -> c_material c = Some m -> m_density m = Fin d ->
  absorption X Gs g (m_afracs m) x -> nudge (A := XRa) = Fin k ->
  dr_batchsize dr = cycle -> (dr_seed dr + cycle <= 2 ^ 64)%N ->
  (dr_batchsize dr + dr_threads dr <= 2 ^ 64)%N -> (0 < dr_threads dr)%N ->
  blank_set (dr_init dr) -> unique_names (dr_init dr) ->
  ss_weight (dr_init dr) = Fin (IZR (Z.of_N (dr_batchsize dr))) ->
  NoDup (map pt_id (dr_perts dr)) ->
  (forall e sn, In e (ss_estimators (dr_init dr)) -> In sn (es_sens e) ->
     own_sensitivity (dr_perts dr) e sn) ->
  let sv := run_schedule (G := Minstd XRa) dr fuel (solver_start dr 0) schedule in
  List.Forall succeeded (sv_workers sv) ->
  exists r, solver_result dr sv = Ok r
    /\ Forall2 (fun e e' : estimator XRa => Forall2 (fun sn sn' : sensitivity XRa =>
         forall pert i, In pert (dr_perts dr) -> pt_id pert = sn_pert sn ->
         (i < length (sc_scores (es_scorable e)))%nat ->
         (i < length (sc_scores (sn_scorable sn)))%nat ->
         contains_nuclide m (pt_nuclide pert) -> sees_beam v g s e i ->
         exists (mu dev slope : R), reported (sn_scorable sn') (ss_weight r) i mu dev
           /\ is_derive (attenuation d x L) 0 slope
           (* the printed value is too large by (1/x + (d-1)L - nudge) for every neutron
              that comes through *)
           /\ Rabs (mu - (slope + (1 / x + (d - 1) * L - k) * attenuation d x L 0))
              <= Rabs (1 / x - (L + k)) * (2 / IZR (Z.of_N cycle)))
         (es_sens e) (es_sens e'))
       (ss_estimators (dr_init dr)) (ss_estimators r).
Proof.
  intros X Gs dr o v g s L rate c m d x k fuel schedule B Fc Em Ed Ab Ek Eb S few T Bl Un Ew Nd Own sv Su.
  destruct (C88_value_proof (Minstd XRa) X Gs dr o v g s L rate c m x k fuel schedule minstd_valid B Fc Em
    Ab Ek few T ltac:(rewrite Eb; reflexivity) Bl Un Ew Nd Own Su) as (r & Er & F).
  destruct (C86_attenuation_proof X Gs dr o v g s L rate fuel schedule B Eb S few T Bl Un Ew Su)
    as (r' & Er' & F').
  pose proof (eq_trans (eq_sym Er) Er') as Q. injection Q as <-. exists r. split; [exact Er|].
  assert (Rt : rate = d * x).
  { destruct (bm_absorber _ _ _ _ _ _ _ _ _ B) as (c1 & m1 & D & x' & Fc1 & Em1 & Ed1 & Ab1 & Hr & _).
    rewrite (first_cell_fun _ _ _ _ Fc1 Fc) in *. rewrite Em in Em1. injection Em1 as <-.
    rewrite Ed in Ed1. injection Ed1 as <-.
    now rewrite (absorption_unique X Gs dr o v g s L rate B c _ _ _ Ab Ab1). }
  subst rate. set (cy := IZR (Z.of_N cycle)) in *.
  pose proof (Forall2_and _ _ _ _ F F') as FF. clear - FF.
  induction FF as [|e e' l l' [H1 H2] F IH]; constructor; auto. clear IH F.
  induction H1 as [|sn sn' l1 l2 H F IH]; constructor; auto. clear IH F.
  intros pert i Hp Ep Hi Hi' Co Se.
  destruct (H pert i Hp Ep Hi Hi') as (mu & dev & effect & [R1 _] & R2 & E1 & _).
  destruct (H2 i Hi) as (y & My & Hy & _). rewrite R1 in My. injection My as <-. specialize (Hy Se).
  rewrite (E1 Co) in R2. eexists _, _, _. split; [exact R2|]. split; [apply attenuation_derive|].
  unfold attenuation. rewrite Rplus_0_r. set (A := exp (- (d * x * L))) in *.
  replace ((1 / x - (L + k)) * mu - (- (d * L) * A + (1 / x + (d - 1) * L - k) * A))
    with ((1 / x - (L + k)) * (mu - A)) by ring.
  rewrite Rabs_mult. apply Rmult_le_compat_l; [apply Rabs_pos|exact Hy].
Qed.

(** ** The slab *)
Definition slope_driver (t : tracking) : @driver XRa :=
  mkDriver (A := XRa) slab_world [more] cycle 1 (tallies (IZR (Z.of_N cycle)) 0 0 0 0) 4 t near_edge.
Lemma slope_ready t : let dr := slope_driver t in
  beam slab_ext [1]%N dr (V3 (19 / 2) 0 0) (V3 1 0 0) 1 edge (1 / 2) 1
  /\ (exists c, first_cell (dr_world dr) (pt (V3 (19 / 2) 0 0)) c /\ c_material c = Some slab_material)
  /\ m_density slab_material = Fin 1 /\ absorption slab_ext [1]%N 1 (m_afracs slab_material) 1
  /\ contains_nuclide slab_material (pt_nuclide more)
  /\ dr_batchsize dr = cycle /\ (dr_seed dr + cycle <= 2 ^ 64)%N
  /\ (dr_batchsize dr + dr_threads dr <= 2 ^ 64)%N /\ (0 < dr_threads dr)%N
  /\ blank_set (dr_init dr) /\ unique_names (dr_init dr)
  /\ ss_weight (dr_init dr) = Fin (IZR (Z.of_N (dr_batchsize dr)))
  /\ NoDup (map pt_id (dr_perts dr))
  /\ (forall e sn, In e (ss_estimators (dr_init dr)) -> In sn (es_sens e) ->
        own_sensitivity (dr_perts dr) e sn)
  /\ List.Forall (ready (dr_perts dr) (V3 1 0 0) 1 edge) (ss_estimators (dr_init dr)).
Proof.
  intros dr. split.
  { replace (1 / 2) with (10 - 19 / 2) by lra. apply slab_beam; [reflexivity|lra|reflexivity]. }
  split.
  { exists slab. split; [|reflexivity]. exists [], [outside]. split; [reflexivity|].
    split; [|intros ? []]. apply in_slab. cbn. lra. }
  split; [reflexivity|]. split.
  { destruct slab_sigma as (S1 & S2 & S3).
    replace 1 with (1 * sigma slab_ext slab_node Rcapture 1 + 0) by (rewrite S1; lra).
    exact (Absorb_one slab_ext [1]%N 1 slab_nuclide 1 slab_node slab_data [] 0 eq_refl
      slab_created slab_sensible slab_groups S2 S3 (Absorb_none _ _ _)). }
  split; [exists (slab_nuclide, Fin 1); split; [now left|reflexivity]|].
  split; [reflexivity|]. split; [vm_compute; discriminate|]. split; [vm_compute; discriminate|].
  split; [reflexivity|]. split.
  { intros e [<-|[]]. split; [exists 1%nat; split; reflexivity|].
    intros sn [<-|[]]. exists 1%nat. split; reflexivity. }
  split.
  { split; [repeat constructor; intros []|]. intros e [<-|[]]. repeat constructor. intros []. }
  split; [reflexivity|]. split; [repeat constructor; intros []|].
  assert (Own : forall e sn, In e (ss_estimators (dr_init dr)) -> In sn (es_sens e) ->
    own_sensitivity (dr_perts dr) e sn).
  { intros e sn [<-|[]] [<-|[]]. split; [reflexivity|]. split; [reflexivity|]. exists more.
    split; [now left|reflexivity]. }
  split; [exact Own|]. constructor; [|constructor]. split.
  - intros _. exists 0%nat. repeat split; cbn; lia.
  - intros sn Hsn. split; [apply Own; [now left|exact Hsn]|]. destruct Hsn as [<-|[]].
    intros _. exists 0%nat. repeat split; cbn; lia.
Qed.

Lemma C88_derivative_refuted_proof :
  forall t, exists (dr : @driver XRa) fuel schedule r e sn (mu dev slope : R),
  dr_tracking dr = t
  (* a beam through half a unit of an absorber of atom density one and cross section one *)
  /\ beam slab_ext [1]%N dr (V3 (19 / 2) 0 0) (V3 1 0 0) 1 edge (1 / 2) 1
  /\ solver_result dr (run_schedule (G := Minstd XRa) dr fuel (solver_start dr 0) schedule) = Ok r
  /\ In e (ss_estimators r) /\ In sn (es_sens e)
  /\ reported (sn_scorable sn) (ss_weight r) 0 mu dev
  /\ is_derive (attenuation 1 1 (1 / 2)) 0 slope
  (* the printed sensitivity has the wrong sign *)
  /\ slope < - (1 / 5) /\ 1 / 5 < mu.
Proof.
  intros t. destruct (slope_ready t) as (B & (c & Fc & Em) & Ed & Ab & Co & Eb & S & few & T & Bl & Un
    & Ew & Nd & Own & Rd).
  set (dr := slope_driver t) in *.
  destruct (fair_exists dr (2 * N.to_nat (dr_batchsize dr) + 1)) as (schedule & Fa).
  pose proof (C86_completes_proof (Minstd XRa) slab_ext [1]%N dr _ _ _ _ _ _ 2 schedule minstd_valid B few
    Bl Un Nd Rd (le_n 2) Fa) as Su.
  destruct nudge_fin as (k & Ek & Hk).
  destruct (C88_error_proof slab_ext [1]%N dr _ _ _ _ _ _ c slab_material 1 1 k 2 schedule B Fc Em Ed Ab Ek
    Eb S few T Bl Un Ew Nd Own Su) as (r & Er & F).
  exists dr, 2%nat, schedule, r. cbn [dr_init dr slope_driver tallies ss_estimators] in F.
  remember (ss_estimators r) as es eqn:Es.
  inversion F as [|e e' l l' H F' E1 E2]; subst. clear F'. cbn [es_sens] in H.
  remember (es_sens e') as ns eqn:Ns.
  inversion H as [|sn sn' l l2 H1 F1 E3 E4]; subst. clear F1.
  destruct (H1 more 0%nat ltac:(now left) eq_refl ltac:(cbn; lia) ltac:(cbn; lia) Co ltac:(split; reflexivity))
    as (mu & dev & slope & Rp & Ds & Er1).
  exists e', sn', mu, dev, slope. split; [reflexivity|]. split; [exact B|]. split; [exact Er|].
  split; [now left|]. split; [rewrite <- E4; now left|]. split; [exact Rp|].
  split; [exact Ds|].
  assert (slope = - (1 * (1 / 2)) * exp (- (1 * 1 * (1 / 2)))).
  { apply is_derive_unique in Ds. rewrite <- Ds. apply is_derive_unique, attenuation_derive. }
  assert (Kk : k < / 1000) by (unfold nudge in Ek; cbn in Ek; decs; injection Ek as <-; lra).
  assert (Ex : 1 / 2 < exp (- (1 * 1 * (1 / 2))) < 1).
  { split; [|apply Rlt_le_trans with (exp 0); [apply exp_increasing; lra|rewrite exp_0; lra]].
    pose proof (exp_ineq1 (- (1 * 1 * (1 / 2))) ltac:(apply Rlt_not_eq; lra)). lra. }
  change (attenuation 1 1 (1 / 2) 0) with (exp (- (1 * (1 + 0) * (1 / 2)))) in Er1.
  rewrite Rplus_0_r in Er1. set (a := exp (- (1 * 1 * (1 / 2)))) in *.
  split; [lra|].
  assert (Cy : 0 < 2 / IZR (Z.of_N cycle) < / 1000).
  { change (Z.of_N cycle) with 2147483646%Z. split; lra. }
  replace (1 / 1 + (1 - 1) * (1 / 2) - k) with (1 - k) in Er1 by lra.
  rewrite (Rabs_right (1 / 1 - (1 / 2 + k))) in Er1 by lra.
  apply Rabs_le_between in Er1. nra.
Qed.
