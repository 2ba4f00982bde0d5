(** Property C101: the printed statistics estimate the mean of a history and its error. *)
From Coq Require Import Bool List Reals NArith.
From Verif Require Import Model.Num Model.Outcome Model.Rng Model.Types Model.Particle Model.Bins
  Model.Perturbation Model.Estimator Spec.SumSpec Spec.EstimatorSpec Spec.AverageSpec
  Proofs.RngProofs Proofs.SampleTally Proofs.AverageProofs.
Import ListNotations.
Local Open Scope R_scope.

(** C101: over [n] independent histories, the mean printed for a bin of an estimator is on the
    average the expected number of crossings of one history; its squared error is on the average
    the variance of one history over [n]; the printed deviation, squared, is on the average
    [(n - 1) / n] of that; and the mean is far off with a chance that falls with [n]. *)
@@C101_statistics

(** The same of a sensitivity. *)
@@C101_sensitivities

(** One history in four crosses the surface. *)
Example C101_case :
  exists D : list (list (particle XRa half_rng) * R), distribution D
  /\ blank_set (tallies (INR 2) 0 0 0 0)
  /\ (forall hs, drawn D 2 hs -> exists ss', run_all (tallies (INR 2) 0 0 0 0) hs = Ok ss')
  /\ expected D (fun h => INR (length (filter (fun p => in_bin one_bin 0 p && crossed 0 p) h))) = 1 / 4
  /\ spread D (fun h => INR (length (filter (fun p => in_bin one_bin 0 p && crossed 0 p) h))) = 3 / 16
  /\ exists x, forall h p, In (h, p) D -> history_total one_bin (weighted_crossing 0 0) 0 h = Fin (x h).
Proof. exact C101_example. Qed.
