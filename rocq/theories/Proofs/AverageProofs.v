(** The printed statistics of independent histories: property C101. *)
From Coq Require Import Bool String List Reals ZArith NArith Lra Lia.
From Verif Require Import Model.Num Model.Outcome Model.Rng Model.Xml Model.Std Model.Point
  Model.Surface Model.Types Model.Bins Model.Field Model.Particle Model.Material Model.World
  Model.Perturbation Model.Estimator Model.Transport Model.Driver
  Spec.SumSpec Spec.TextExt Spec.TransportSpec Spec.HistorySpec Spec.EstimatorSpec Spec.AverageSpec
  Proofs.RealLib Proofs.OutcomeLib Proofs.RngProofs Proofs.CrossingProofs Proofs.SampleProblem
  Proofs.HistoryProofs Proofs.EstimatorProofs Proofs.TallyProofs Proofs.MergeProofs
  Proofs.SampleTally.
Import ListNotations.
Local Open Scope R_scope.

Section Draws.
  Context {H : Type} (D : list (H * R)).
  Hypothesis HD : distribution D.

  Lemma expected_ext f g : (forall h p, In (h, p) D -> f h = g h) -> expected D f = expected D g.
  Proof.
    intros E. unfold expected. f_equal. apply map_ext_in. intros [h p] Hin. cbn. now rewrite (E h p).
  Qed.
  Lemma expected_plus f g : expected D (fun h => f h + g h) = expected D f + expected D g.
  Proof. unfold expected. clear HD. induction D as [|[h p] l IH]; cbn; [ring|]. rewrite IH. ring. Qed.
  Lemma expected_scale a f : expected D (fun h => a * f h) = a * expected D f.
  Proof. unfold expected. clear HD. induction D as [|[h p] l IH]; cbn; [ring|]. rewrite IH. ring. Qed.
  Lemma expected_const a : expected D (fun _ => a) = a.
  Proof.
    destruct HD as [_ S]. unfold expected. transitivity (a * Rsum (map snd D)); [|rewrite S; ring].
    clear. induction D as [|[h p] l IH]; cbn; [ring|]. rewrite IH. ring.
  Qed.
  Lemma expected_le f g : (forall h p, In (h, p) D -> f h <= g h) -> expected D f <= expected D g.
  Proof.
    destruct HD as [P _]. unfold expected. clear HD. induction D as [|[h p] l IH]; intros E; cbn; [lra|].
    assert (p * f h <= p * g h).
    { apply Rmult_le_compat_l; [apply (P h); now left|apply (E h p); now left]. }
    enough (Rsum (map (fun hp => snd hp * f (fst hp)) l) <= Rsum (map (fun hp => snd hp * g (fst hp)) l)) by lra.
    apply IH; [intros; eapply P; right; eauto|intros; eapply E; right; eauto].
  Qed.

  Lemma drawn_cons n h p hs : In (h, p) D -> drawn D n hs -> drawn D (S n) (h :: hs).
  Proof.
    intros Hin [L I]. split; [cbn; lia|]. intros h' [<-|Hh]; eauto.
  Qed.
  Lemma expect_ext n : forall f g, (forall hs, drawn D n hs -> f hs = g hs) -> expect D n f = expect D n g.
  Proof.
    induction n as [|n IH]; intros f g E; cbn; [apply E; split; [reflexivity|intros h []]|].
    apply expected_ext. intros h p Hin. apply IH. intros hs Hs. apply E. now apply (drawn_cons n h p).
  Qed.
  Lemma expect_plus n : forall f g, expect D n (fun hs => f hs + g hs) = expect D n f + expect D n g.
  Proof.
    induction n as [|n IH]; intros f g; cbn; [reflexivity|].
    rewrite <- expected_plus. apply expected_ext. intros h p _. apply IH.
  Qed.
  Lemma expect_scale n a : forall f, expect D n (fun hs => a * f hs) = a * expect D n f.
  Proof.
    induction n as [|n IH]; intros f; cbn; [reflexivity|].
    rewrite <- expected_scale. apply expected_ext. intros h p _. apply IH.
  Qed.
  Lemma expect_const n a : expect D n (fun _ => a) = a.
  Proof.
    induction n as [|n IH]; cbn; [reflexivity|].
    transitivity (expected D (fun _ => a)); [|apply expected_const].
    apply expected_ext. intros h p _. exact IH.
  Qed.
  Lemma expect_le n : forall f g, (forall hs, drawn D n hs -> f hs <= g hs) -> expect D n f <= expect D n g.
  Proof.
    induction n as [|n IH]; intros f g E; cbn; [apply E; split; [reflexivity|intros h []]|].
    apply expected_le. intros h p Hin. apply IH. intros hs Hs. apply E. now apply (drawn_cons n h p).
  Qed.

  (** Sums over the draws. *)
  Lemma expect_sum n (x : H -> R) : expect D n (fun hs => Rsum (map x hs)) = INR n * expected D x.
  Proof.
    induction n as [|n IH]; [cbn; ring|]. cbn [expect].
    rewrite (expected_ext _ (fun h => x h + INR n * expected D x)).
    - rewrite expected_plus, expected_const, S_INR. ring.
    - intros h p _. cbn [map Rsum]. rewrite (expect_plus n (fun _ => x h)), expect_const, IH. reflexivity.
  Qed.
  Lemma expect_square n (x : H -> R) :
    expect D n (fun hs => Rsum (map x hs) * Rsum (map x hs))
    = INR n * expected D (fun h => x h * x h) + INR n * (INR n - 1) * (expected D x * expected D x).
  Proof.
    induction n as [|n IH]; [cbn; ring|]. cbn [expect].
    rewrite (expected_ext _ (fun h => (x h * x h + 2 * (INR n * expected D x) * x h)
      + expect D n (fun hs => Rsum (map x hs) * Rsum (map x hs)))).
    - rewrite expected_plus, expected_plus, expected_scale, expected_const, IH, S_INR. ring.
    - intros h p _. rewrite <- (expect_sum n x).
      transitivity (expect D n (fun hs => (x h * x h + (2 * x h) * Rsum (map x hs)) + Rsum (map x hs) * Rsum (map x hs))).
      + apply expect_ext. intros hs _. cbn [map Rsum]. ring.
      + rewrite (expect_plus n (fun hs => x h * x h + (2 * x h) * Rsum (map x hs))),
          (expect_plus n (fun _ => x h * x h)), expect_const, expect_scale. ring.
  Qed.

  Lemma spread_is (x : H -> R) : spread D x = expected D (fun h => x h * x h) - expected D x * expected D x.
  Proof.
    unfold spread. set (m := expected D x).
    rewrite (expected_ext _ (fun h => (x h * x h + (- 2 * m) * x h) + m * m)).
    - rewrite expected_plus, expected_plus, expected_scale, expected_const. fold m. ring.
    - intros h p _. ring.
  Qed.

  Lemma variance_is (xs : list R) : xs <> [] ->
    variance xs = Rsum (map (fun x => x * x) xs) / INR (length xs) - mean xs * mean xs.
  Proof.
    intros Ne. unfold variance.
    assert (L : 0 < INR (length xs)).
    { apply lt_0_INR. destruct xs; [congruence|cbn; lia]. }
    assert (E : forall c l, Rsum (map (fun x => (x - c) * (x - c)) l)
      = Rsum (map (fun x => x * x) l) - 2 * c * Rsum l + INR (length l) * (c * c)).
    { intros c. induction l as [|a l IH]; [cbn; ring|]. cbn [map Rsum length]. rewrite IH, S_INR. ring. }
    rewrite E. unfold mean. field. lra.
  Qed.

  Section N.
    Context (n : nat) (Hn : (0 < n)%nat) (x : H -> R).
    Let Pn : 0 < INR n := lt_0_INR n Hn.

    Lemma mean_drawn hs : drawn D n hs -> mean (map x hs) = / INR n * Rsum (map x hs).
    Proof. intros [L _]. unfold mean. rewrite map_length, L. unfold Rdiv. ring. Qed.

    Lemma expect_mean : expect D n (fun hs => mean (map x hs)) = expected D x.
    Proof.
      rewrite (expect_ext n _ (fun hs => / INR n * Rsum (map x hs)) mean_drawn).
      rewrite expect_scale, expect_sum. field. lra.
    Qed.

    Lemma expect_mean2 : expect D n (fun hs => mean (map x hs) * mean (map x hs))
      = expected D x * expected D x + spread D x / INR n.
    Proof.
      rewrite (expect_ext n _ (fun hs => (/ INR n * / INR n) * (Rsum (map x hs) * Rsum (map x hs)))).
      - rewrite expect_scale, expect_square, spread_is. field. lra.
      - intros hs Hs. rewrite (mean_drawn hs Hs). ring.
    Qed.

    Lemma expect_error : expect D n (fun hs => (mean (map x hs) - expected D x) * (mean (map x hs) - expected D x))
      = spread D x / INR n.
    Proof.
      set (m := expected D x).
      rewrite (expect_ext n _ (fun hs => (mean (map x hs) * mean (map x hs) + (- 2 * m) * mean (map x hs)) + m * m)).
      - rewrite expect_plus, (expect_plus n (fun hs => mean (map x hs) * mean (map x hs))),
          expect_scale, expect_const, expect_mean2, expect_mean. fold m. ring.
      - intros hs _. ring.
    Qed.

    Lemma expect_variance : expect D n (fun hs => variance (map x hs) / INR n)
      = (1 - / INR n) * (spread D x / INR n).
    Proof.
      rewrite (expect_ext n _ (fun hs => / (INR n * INR n) * Rsum (map (fun h => x h * x h) hs)
        + (- / INR n) * (mean (map x hs) * mean (map x hs)))).
      - rewrite (expect_plus n (fun hs => / (INR n * INR n) * Rsum (map (fun h => x h * x h) hs))),
          !expect_scale, expect_sum, expect_mean2, spread_is. field. lra.
      - intros hs [L I]. rewrite variance_is by (destruct hs; [cbn in L; lia|discriminate]).
        rewrite map_map, map_length, L. field. lra.
    Qed.

    Lemma expect_chebyshev eps : 0 < eps ->
      probability D n (fun hs => if Rle_dec eps (Rabs (mean (map x hs) - expected D x)) then true else false)
      <= spread D x / INR n / (eps * eps).
    Proof.
      intros He. rewrite <- expect_error. unfold probability.
      assert (E2 : 0 < eps * eps) by nra.
      apply Rle_trans with (expect D n (fun hs => / (eps * eps) * ((mean (map x hs) - expected D x) * (mean (map x hs) - expected D x)))).
      - apply expect_le. intros hs _. set (y := mean (map x hs) - expected D x).
        destruct (Rle_dec eps (Rabs y)) as [L|L].
        + assert (eps * eps <= y * y).
          { assert (Y : Rabs y * Rabs y = y * y) by (rewrite <- Rabs_mult; apply Rabs_pos_eq; nra).
            pose proof (Rabs_pos y). nra. }
          apply Rmult_le_reg_l with (eps * eps); auto. rewrite <- Rmult_assoc, Rinv_r by lra. lra.
        + apply Rmult_le_pos; [left; now apply Rinv_0_lt_compat|apply Rle_0_sqr].
      - rewrite expect_scale. unfold Rdiv. lra.
    Qed.
  End N.
End Draws.


Lemma printed_estimates {H} (D : list (H * R)) n (x : H -> R) (s : list H -> scorable XRa -> xr -> Prop) i :
  distribution D -> (0 < n)%nat ->
  (forall hs, drawn D n hs -> exists sc w, s hs sc w /\ printed sc w i (map x hs)) ->
  estimates D n x (fun hs m d => exists sc w, s hs sc w
    /\ nth_error (sc_means sc w) i = Some (Fin m) /\ nth_error (sc_stddevs sc w) i = Some (Fin d)).
Proof.
  intros HD Hn P.
  exists (fun hs => mean (map x hs)), (fun hs => sqrt (variance (map x hs)) / sqrt (INR (length (map x hs)))).
  pose proof (lt_0_INR n Hn) as Pn.
  split; [|split; [|split; [|split]]].
  - intros hs Hs. destruct (P hs Hs) as (sc & w & E & E1 & E2). eauto 6.
  - now apply expect_mean.
  - now apply expect_error.
  - rewrite <- (expect_variance D HD n Hn x). apply expect_ext. intros hs [L I]. rewrite map_length, L.
    assert (V : 0 <= variance (map x hs)).
    { unfold variance. rewrite map_length, L. apply Rmult_le_pos; [apply Rsum_sq_nonneg|left; now apply Rinv_0_lt_compat]. }
    pose proof (sqrt_sqrt _ V) as Sv. pose proof (sqrt_sqrt (INR n) ltac:(lra)) as Sn.
    assert (0 < sqrt (INR n)) by now apply sqrt_lt_R0.
    transitivity ((sqrt (variance (map x hs)) * sqrt (variance (map x hs))) / (sqrt (INR n) * sqrt (INR n)));
      [field; lra|]. now rewrite Sv, Sn.
  - intros eps He. now apply expect_chebyshev.
Qed.

Lemma Forall2_nth {X Y} (P : X -> Y -> Prop) l l' k a :
  Forall2 P l l' -> nth_error l k = Some a -> exists b, nth_error l' k = Some b /\ P a b.
Proof.
  intros F. revert k. induction F as [|u v l l' P0 F IH]; intros [|k] Ek; cbn in *; try discriminate.
  - injection Ek as <-. eauto.
  - auto.
Qed.

(** The number of crossings that a history scores in a bin. *)
Lemma C101_statistics_proof :
  forall (G : Rng XRa) (D : list (list (particle XRa G) * R)) (n : nat) (ss : estimator_set XRa) k e i,
  distribution D -> (0 < n)%nat -> blank_set ss -> ss_weight ss = Fin (INR n) ->
  (forall hs, drawn D n hs -> exists ss', run_all ss hs = Ok ss') ->
  nth_error (ss_estimators ss) k = Some e -> (i < length (sc_scores (es_scorable e)))%nat ->
  estimates D n
    (fun h => INR (length (filter (fun p => in_bin (sc_bins (es_scorable e)) i p
                                            && crossed (es_surface e) p) h)))
    (fun hs m d => exists sc weight,
       (exists ss' e', run_all ss hs = Ok ss' /\ nth_error (ss_estimators ss') k = Some e'
          /\ sc = es_scorable e' /\ weight = ss_weight ss')
       /\ nth_error (sc_means sc weight) i = Some (Fin m)
       /\ nth_error (sc_stddevs sc weight) i = Some (Fin d)).
Proof.
  intros G D n ss k e i HD Hn Bl Ew Run Ek Hi.
  apply (printed_estimates D n _ (fun hs sc weight => exists ss' e', run_all ss hs = Ok ss'
    /\ nth_error (ss_estimators ss') k = Some e' /\ sc = es_scorable e' /\ weight = ss_weight ss')); auto.
  intros hs Hs. destruct (Run hs Hs) as (ss' & E). destruct Hs as [L I].
  assert (F := C52_statistics_proof G hs ss ss' Bl ltac:(destruct hs; [cbn in L; lia|discriminate])
    ltac:(rewrite L; exact Ew) E).
  destruct (Forall2_nth _ _ _ k e F Ek) as (e' & N1 & N2 & _).
  exists (es_scorable e'), (ss_weight ss'). split; [eauto 7|]. now apply N2.
Qed.

(** The same of a sensitivity, where every history's total is a real number. *)
Lemma C101_sensitivities_proof :
  forall (G : Rng XRa) (D : list (list (particle XRa G) * R)) (n : nat) (ss : estimator_set XRa) k e j sn i
    (x : list (particle XRa G) -> R),
  distribution D -> (0 < n)%nat -> blank_set ss -> ss_weight ss = Fin (INR n) ->
  (forall hs, drawn D n hs -> exists ss', run_all ss hs = Ok ss') ->
  nth_error (ss_estimators ss) k = Some e -> nth_error (es_sens e) j = Some sn ->
  (i < length (sc_scores (sn_scorable sn)))%nat ->
  (forall h p, In (h, p) D ->
     history_total (sc_bins (sn_scorable sn)) (weighted_crossing (sn_surface sn) (sn_pert sn)) i h = Fin (x h)) ->
  estimates D n x
    (fun hs m d => exists sc weight,
       (exists ss' e' sn', run_all ss hs = Ok ss' /\ nth_error (ss_estimators ss') k = Some e'
          /\ nth_error (es_sens e') j = Some sn' /\ sc = sn_scorable sn' /\ weight = ss_weight ss')
       /\ nth_error (sc_means sc weight) i = Some (Fin m)
       /\ nth_error (sc_stddevs sc weight) i = Some (Fin d)).
Proof.
  intros G D n ss k e j sn i x HD Hn Bl Ew Run Ek Ej Hi Hx.
  apply (printed_estimates D n _ (fun hs sc weight => exists ss' e' sn', run_all ss hs = Ok ss'
    /\ nth_error (ss_estimators ss') k = Some e' /\ nth_error (es_sens e') j = Some sn'
    /\ sc = sn_scorable sn' /\ weight = ss_weight ss')); auto.
  intros hs Hs. destruct (Run hs Hs) as (ss' & E). destruct Hs as [L I].
  assert (F := C52_statistics_proof G hs ss ss' Bl ltac:(destruct hs; [cbn in L; lia|discriminate])
    ltac:(rewrite L; exact Ew) E).
  destruct (Forall2_nth _ _ _ k e F Ek) as (e' & N1 & _ & N2).
  destruct (Forall2_nth _ _ _ j sn N2 Ej) as (sn' & M1 & M2).
  exists (sn_scorable sn'), (ss_weight ss'). split; [eauto 9|].
  apply M2; auto. rewrite map_map. apply map_ext_in. intros h Hh. destruct (I h Hh) as (p & Hp). eauto.
Qed.

(** The sample problem: one history in four crosses the surface, and the others are captured. *)
Lemma scores_once k (q : particle XRa half_rng) weight x y u v :
  effect k <> 0 -> p_event q = leak -> p_surface q = Some 0%nat -> p_indirect q = [(more, Fin (0 + effect k))] ->
  exists x' y' u' v', run_events (tallies weight x y u v) [q] = Ok (tallies weight x' y' u' v').
Proof.
  intros Ne Ev Esf Ei.
  assert (Sc : set_proxy_score (tallies weight x y u v) (new_set_proxy (tallies weight x y u v)) q
    = Ok [([(0%N, Fin 1)], [[(0%N, Fin (effect k))]])]).
  { assert (E1 : current_score 0 q = Fin 1).
    { unfold current_score. rewrite Esf, Ev. reflexivity. }
    unfold set_proxy_score, new_set_proxy, tallies. cbn [map ss_estimators combine mapM fst snd bind].
    unfold est_proxy_score. cbn [es_scorable es_surface es_sens new_proxy fst snd map combine mapM].
    cbn [sn_surface sn_pert sn_scorable]. unfold sens_score, get_indirect. rewrite Ei.
    cbn [find fst snd pt_id more Nat.eqb sn_surface sn_pert bind]. change (num XRa) with xr. rewrite E1.
    assert (P : forall s, s <> 0 -> proxy_score (A := XRa) one_bin (Fin s) [] q = Ok [(0%N, Fin s)]).
    { intros s Hs. unfold proxy_score. cbn [neqb XRa]. cbn. rewrite Reqb_false by auto. reflexivity. }
    change (sc_bins (tally "through" x y)) with one_bin.
    change (sc_bins (tally "through::more" u v)) with one_bin.
    change (nmul XRa (Fin (0 + effect k)) (Fin 1)) with (Fin ((0 + effect k) * 1)).
    change (num XRa) with xr in *.
    rewrite P by lra. cbn [bind]. rewrite P by lra. cbn [bind noexcept]. do 5 f_equal.
    - do 2 f_equal. lra. }
  unfold run_events. cbn [foldM]. change (num XRa) with xr in *. rewrite Sc. cbn [bind].
  unfold set_commit. cbn. unfold tallies, tally. do 4 eexists. reflexivity.
Qed.
Lemma scores_nothing (q : particle XRa half_rng) e0 weight x y u v :
  p_event q = capture -> p_indirect q = [(more, Fin e0)] ->
  exists x' y' u' v', run_events (tallies weight x y u v) [q] = Ok (tallies weight x' y' u' v').
Proof.
  intros Ev Ei.
  assert (Sc : set_proxy_score (tallies weight x y u v) (new_set_proxy (tallies weight x y u v)) q
    = Ok [([], [[]])]).
  { assert (E1 : current_score 0 q = Fin 0).
    { unfold current_score. rewrite Ev. destruct (p_surface q); cbn; [now rewrite ?Bool.andb_false_r|reflexivity]. }
    unfold set_proxy_score, new_set_proxy, tallies. cbn [map ss_estimators combine mapM fst snd bind].
    unfold est_proxy_score. cbn [es_scorable es_surface es_sens new_proxy fst snd map combine mapM].
    cbn [sn_surface sn_pert sn_scorable]. unfold sens_score, get_indirect. rewrite Ei.
    cbn [find fst snd pt_id more Nat.eqb sn_surface sn_pert bind]. change (num XRa) with xr. rewrite E1.
    assert (P : forall s, s = 0 -> proxy_score (A := XRa) one_bin (Fin s) [] q = Ok []).
    { intros s ->. unfold proxy_score. cbn [neqb XRa]. cbn. rewrite Reqb_true by auto. reflexivity. }
    change (sc_bins (tally "through" x y)) with one_bin.
    change (sc_bins (tally "through::more" u v)) with one_bin.
    change (nmul XRa (Fin e0) (Fin 0)) with (Fin (e0 * 0)).
    change (num XRa) with xr in *.
    rewrite P by lra. cbn [bind]. rewrite P by lra. reflexivity. }
  unfold run_events. cbn [foldM]. change (num XRa) with xr in *. rewrite Sc. cbn [bind].
  unfold set_commit. cbn. unfold tallies, tally. do 4 eexists. reflexivity.
Qed.

Lemma C101_example :
  exists D : list (list (particle XRa half_rng) * R), distribution D
  /\ blank_set (tallies (INR 2) 0 0 0 0)
  /\ (forall hs, drawn D 2 hs -> exists ss', run_all (tallies (INR 2) 0 0 0 0) hs = Ok ss')
  /\ expected D (fun h => INR (length (filter (fun p => in_bin one_bin 0 p && crossed 0 p) h))) = 1 / 4
  /\ spread D (fun h => INR (length (filter (fun p => in_bin one_bin 0 p && crossed 0 p) h))) = 3 / 16
  /\ exists x, forall h p, In (h, p) D -> history_total one_bin (weighted_crossing 0 0) 0 h = Fin (x h).
Proof.
  destruct nudge_fin as (k & Ek & _).
  destruct (near_edge_start 0) as (p & Ep & Hn & Ex & Eu & Es & Eb & Ec).
  destruct (leak_step 0 (set_cell (set_perturbations [more] p) slab) k Ek) as (q & Eq & Ev & Esf & Ei & _);
    try reflexivity; auto.
  { destruct Hn; constructor; auto. }
  assert (Ne : effect k <> 0).
  { unfold effect. unfold nudge in Ek. cbn in Ek. decs. injection Ek as <-. lra. }
  set (c := set_event q capture).
  assert (Cq : crossed 0 q = true) by (unfold crossed; now rewrite Esf, Ev).
  assert (Cc : crossed 0 c = false) by (unfold crossed, c; cbn; now rewrite Esf).
  assert (Bq : in_bin one_bin 0 q = true) by reflexivity.
  assert (Bc : in_bin one_bin 0 c = true) by reflexivity.
  exists [([q], 1 / 4); ([c], 3 / 4)].
  split; [|split; [|split; [|split; [|split]]]].
  - split; [|cbn; lra]. intros h r [E|[E|[]]]; injection E as _ <-; lra.
  - intros e [<-|[]]. split; [exists 1%nat; split; reflexivity|].
    intros sn [<-|[]]. exists 1%nat. split; reflexivity.
  - intros hs [_ I]. unfold run_all.
    assert (R1 : forall x y u v, exists ss', foldM run_events hs (tallies (INR 2) x y u v) = Ok ss').
    { induction hs as [|h hs IH]; intros x y u v; cbn [foldM]; [eauto|].
      assert (Eh : exists x' y' u' v', run_events (tallies (INR 2) x y u v) h = Ok (tallies (INR 2) x' y' u' v')).
      { destruct (I h (or_introl eq_refl)) as (r & [E|[E|[]]]); injection E as <- _.
        - now apply (scores_once k).
        - now apply (scores_nothing c (0 + effect k)). }
      destruct Eh as (x' & y' & u' & v' & ->). cbn [bind]. apply IH. intros h' Hh. apply I. now right. }
    apply R1.
  - unfold expected. cbn [map filter fst snd Rsum]. rewrite Bq, Bc, Cq, Cc. cbn. lra.
  - unfold spread, expected. cbn [map filter fst snd Rsum]. rewrite Bq, Bc, Cq, Cc. cbn. lra.
  - exists (fun h => match h with x :: _ => if crossed 0 x then effect k else 0 | _ => 0 end).
    intros h r [E|[E|[]]]; injection E as <- _; unfold history_total; cbn [filter]; rewrite ?Bq, ?Bc;
      cbn [map]; unfold weighted_crossing, crossing, indirect_effect; change (p_indirect c) with (p_indirect q);
      rewrite ?Cq, ?Cc, Ei; cbn; f_equal; lra.
Qed.
