(** Property C101: the printed statistics estimate the mean of a history and its error. *)
From Coq Require Import Bool List Reals NArith.
From Verif Require Import Model.Num Model.Outcome Model.Rng Model.Types Model.Particle Model.Bins
  Model.Perturbation Model.Estimator Spec.SumSpec Spec.EstimatorSpec Spec.AverageSpec
  Proofs.RngProofs Proofs.SampleTally Proofs.AverageProofs.
Import ListNotations.
Local Open Scope R_scope.

(** C101: over [n] independent histories, the mean printed for a bin of an estimator is on the
    average the expected number of crossings of one history; its squared error is on the average
    the variance of one history over [n]; the printed deviation, squared, is on the average
    [(n - 1) / n] of that; and the mean is far off with a chance that falls with [n]. *)
Theorem C101_statistics :
  forall (G : Rng XRa) (D : list (list (particle XRa G) * R)) (n : nat) (ss : estimator_set XRa) k e i,
  distribution D -> (0 < n)%nat -> blank_set ss -> ss_weight ss = Fin (INR n) ->
  (forall hs, drawn D n hs -> exists ss', run_all ss hs = Ok ss') ->
  nth_error (ss_estimators ss) k = Some e -> (i < length (sc_scores (es_scorable e)))%nat ->
  estimates D n
    (fun h => INR (length (filter (fun p => in_bin (sc_bins (es_scorable e)) i p
                                            && crossed (es_surface e) p) h)))
    (fun hs m d => exists sc weight,
       (exists ss' e', run_all ss hs = Ok ss' /\ nth_error (ss_estimators ss') k = Some e'
          /\ sc = es_scorable e' /\ weight = ss_weight ss')
       /\ nth_error (sc_means sc weight) i = Some (Fin m)
       /\ nth_error (sc_stddevs sc weight) i = Some (Fin d)).
Proof. exact C101_statistics_proof. Qed.
Print Assumptions C101_statistics.

(** The same of a sensitivity. *)
Theorem C101_sensitivities :
  forall (G : Rng XRa) (D : list (list (particle XRa G) * R)) (n : nat) (ss : estimator_set XRa) k e j sn i
    (x : list (particle XRa G) -> R),
  distribution D -> (0 < n)%nat -> blank_set ss -> ss_weight ss = Fin (INR n) ->
  (forall hs, drawn D n hs -> exists ss', run_all ss hs = Ok ss') ->
  nth_error (ss_estimators ss) k = Some e -> nth_error (es_sens e) j = Some sn ->
  (i < length (sc_scores (sn_scorable sn)))%nat ->
  (forall h p, In (h, p) D ->
     history_total (sc_bins (sn_scorable sn)) (weighted_crossing (sn_surface sn) (sn_pert sn)) i h = Fin (x h)) ->
  estimates D n x
    (fun hs m d => exists sc weight,
       (exists ss' e' sn', run_all ss hs = Ok ss' /\ nth_error (ss_estimators ss') k = Some e'
          /\ nth_error (es_sens e') j = Some sn' /\ sc = sn_scorable sn' /\ weight = ss_weight ss')
       /\ nth_error (sc_means sc weight) i = Some (Fin m)
       /\ nth_error (sc_stddevs sc weight) i = Some (Fin d)).
Proof. exact C101_sensitivities_proof. Qed.
Print Assumptions C101_sensitivities.

(** One history in four crosses the surface. *)
Example C101_case :
  exists D : list (list (particle XRa half_rng) * R), distribution D
  /\ blank_set (tallies (INR 2) 0 0 0 0)
  /\ (forall hs, drawn D 2 hs -> exists ss', run_all (tallies (INR 2) 0 0 0 0) hs = Ok ss')
  /\ expected D (fun h => INR (length (filter (fun p => in_bin one_bin 0 p && crossed 0 p) h))) = 1 / 4
  /\ spread D (fun h => INR (length (filter (fun p => in_bin one_bin 0 p && crossed 0 p) h))) = 3 / 16
  /\ exists x, forall h p, In (h, p) D -> history_total one_bin (weighted_crossing 0 0) 0 h = Fin (x h).
Proof. exact C101_example. Qed.
