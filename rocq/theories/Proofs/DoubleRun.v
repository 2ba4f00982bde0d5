(** The statistics of whole runs in binary64: C81. *)
From Coq Require Import Bool String List ZArith NArith Reals Lra Lia SpecFloat.
From Verif Require Import Model.Num Model.Outcome Model.Rng Model.Types Model.Bins
  Model.Particle Model.Estimator Model.Transport Model.Driver
  Spec.DoubleSpec Spec.HistorySpec Spec.EstimatorSpec Spec.CountSpec Spec.SolverSpec
  Proofs.CountProofs Proofs.SolverProofs Proofs.DoubleStats.
Import ListNotations.

Lemma squares_le (l : list Z) : (forall x, In x l -> 0 <= x)%Z ->
  (Zsum (map (fun x => x * x) l) <= Zsum l * Zsum l)%Z.
Proof.
  induction l as [|x l IH]; intros H; [cbn; lia|]. cbn [map].
  change (Zsum (?y :: ?t)) with (y + Zsum t)%Z.
  pose proof (H x (or_introl eq_refl)). specialize (IH (fun y Hy => H y (or_intror Hy))).
  pose proof (Zsum_nonneg l (fun y Hy => H y (or_intror Hy))). nia.
Qed.

Lemma nth_lt {X} (l : list X) i x : nth_error l i = Some x -> (i < length l)%nat.
Proof. intros H. apply nth_error_Some. congruence. Qed.

Lemma C81_run_proof :
  forall (L : Libm) (G : Rng (F64 L)) (dr : @driver (F64 L)) fuel schedule,
  (dr_batchsize dr + dr_threads dr <= 2 ^ 64)%N -> (0 < dr_threads dr)%N ->
  (1 <= dr_batchsize dr <= 2 ^ 53)%N ->
  blank_set (dr_init dr) -> unique_names (dr_init dr) ->
  ss_weight (dr_init dr) = f64_ofZ (Z.of_N (dr_batchsize dr)) ->
  let sv := run_schedule (G := G) dr fuel (solver_start dr 0) schedule in
  List.Forall succeeded (sv_workers sv) ->
  exists r hs, solver_result dr sv = Ok r
    /\ Forall2 (history (G := G) dr) (below (dr_batchsize dr)) hs
    (* no surface is crossed more than 94906265 times in all *)
    /\ ((forall surface, Zsum (map (crossings surface) hs) <= 94906265)%Z ->
        forall e, In e (ss_estimators r) ->
        List.Forall (fun m => is_double m /\ finite m) (sc_means (es_scorable e) (ss_weight r))
        /\ List.Forall (fun d => is_double d /\ finite d /\ 0 <= value d)%R
             (sc_stddevs (es_scorable e) (ss_weight r))).
Proof.
  intros L G dr fuel schedule Hb Ht Hn Bl Un Hw sv Ok.
  destruct (C78_counts_proof (F64 L) (2 ^ 53) G dr fuel schedule (C78_exact_proof L) Hb Ht Bl Un Ok)
    as (r & hs & Er & Fh & C).
  exists r, hs. split; [exact Er|]. split; [exact Fh|]. intros Few e He.
  assert (Pos : forall surface x, In x (map (crossings surface) hs) -> (0 <= x)%Z).
  { intros surface x Hx. apply in_map_iff in Hx as (h & <- & _). apply howmany_nonneg. }
  assert (Few' : few_crossings (2 ^ 53) hs).
  { intros surface. specialize (Few surface).
    pose proof (squares_le _ (Pos surface)) as K. rewrite map_map in K.
    pose proof (Zsum_nonneg _ (Pos surface)). nia. }
  destruct (C Few') as (W & F). clear C.
  assert (Len : Z.of_nat (length hs) = Z.of_N (dr_batchsize dr)).
  { assert (E : length (below (dr_batchsize dr)) = length hs)
      by (clear - Fh; induction Fh; cbn [length]; congruence).
    rewrite <- E, below_length. apply N_nat_Z. }
  rewrite W, Hw, <- Len.
  assert (K : exists e0, In e0 (ss_estimators (dr_init dr)) /\ counted_estimator hs e0 e).
  { clear - F He. induction F as [|a b l l' R F IH]; [destruct He|].
    destruct He as [<-|He]; [exists a; split; [now left|exact R]|].
    destruct (IH He) as (e0 & I & R'). exists e0. split; [now right|exact R']. }
  destruct K as (e0 & I0 & [_ Cn]). destruct (Bl e0 I0) as ((k & Z1 & Z2) & _).
  assert (Ls : length (sc_scores (es_scorable e0)) = k) by (rewrite Z1; apply repeat_length).
  assert (Lq : length (sc_squares (es_scorable e0)) = k) by (rewrite Z2; apply repeat_length).
  assert (Each : forall i, (i < k)%nat -> exists mean deviation,
    nth_error (sc_means (es_scorable e) (f64_ofZ (Z.of_nat (length hs)))) i = Some mean
    /\ nth_error (sc_stddevs (es_scorable e) (f64_ofZ (Z.of_nat (length hs)))) i = Some deviation
    /\ is_double mean /\ finite mean /\ is_double deviation /\ finite deviation
    /\ (0 <= value deviation)%R).
  { intros i Hi.
    set (counts := map (bin_crossings (sc_bins (es_scorable e0)) (es_surface e0) i) hs).
    assert (Nc : forall x, In x counts -> (0 <= x)%Z).
    { intros x Hx. apply in_map_iff in Hx as (h & <- & _). apply howmany_nonneg. }
    assert (Le : (Zsum counts <= Zsum (map (crossings (es_surface e0)) hs))%Z).
    { unfold counts. clear. induction hs as [|h hs IH]; [cbn; lia|]. cbn [map].
      change (Zsum (?y :: ?t)) with (y + Zsum t)%Z.
      pose proof (bin_le (sc_bins (es_scorable e0)) (es_surface e0) i h). lia. }
    specialize (Few (es_surface e0)). pose proof (Zsum_nonneg _ Nc). pose proof (squares_le _ Nc).
    destruct (C81_statistics_proof L G (es_surface e0) hs (es_scorable e0) (es_scorable e) i Cn)
      as (m & d & E1 & E2 & D1 & F1 & D2 & F2 & P & _).
    - now rewrite Ls.
    - now rewrite Ls, Lq.
    - rewrite Len. lia.
    - fold counts. nia.
    - fold counts. nia.
    - exists m, d. auto 10. }
  assert (Lm : length (sc_means (es_scorable e) (f64_ofZ (Z.of_nat (length hs)))) = k).
  { unfold sc_means. rewrite map_length, (counted_size _ _ _ _ Cn). exact Ls. }
  assert (Ld : length (sc_stddevs (es_scorable e) (f64_ofZ (Z.of_nat (length hs)))) = k).
  { unfold sc_stddevs.
    rewrite map_length, combine_length, (counted_size _ _ _ _ Cn), (counted_size2 _ _ _ _ Cn). lia. }
  split; apply Forall_forall; intros x Hx; apply In_nth_error in Hx as (i & Hi);
    assert (Li : (i < k)%nat)
      by (first [exact (Nat.lt_le_trans _ _ _ (nth_lt _ _ _ Hi) (Nat.eq_le_incl _ _ Lm))
                |exact (Nat.lt_le_trans _ _ _ (nth_lt _ _ _ Hi) (Nat.eq_le_incl _ _ Ld))]);
    destruct (Each i Li) as (m & d & E1 & E2 & D1 & F1 & D2 & F2 & P).
  - assert (Em : Some m = Some x) by exact (eq_trans (eq_sym E1) Hi). injection Em as <-. auto.
  - assert (Em : Some d = Some x) by exact (eq_trans (eq_sym E2) Hi). injection Em as <-. auto.
Qed.
