(** Properties C56-C60 and C62: the workers of the fixed-source solver, and the random
    numbers of histories. *)
From Coq Require Import Bool String List Reals ZArith NArith Lra Lia Permutation.
From Verif Require Import Model.Num Model.Outcome Model.Rng Model.Xml Model.Std Model.Point
  Model.Surface Model.Types Model.Bins Model.Field Model.Particle Model.Material Model.World
  Model.Perturbation Model.Estimator Model.Transport Model.Driver
  Spec.SumSpec Spec.RngSpec Spec.TextExt Spec.TransportSpec Spec.HistorySpec Spec.EstimatorSpec
  Spec.SolverSpec
  Proofs.RealLib Proofs.RngProofs Proofs.CrossingProofs Proofs.SampleProblem
  Proofs.SampleTally Proofs.SolverProofs Proofs.ResultProofs Proofs.PeriodProofs
  Proofs.SampleSolve.
Import ListNotations.
Local Open Scope string_scope.
Local Open Scope R_scope.

(** C56: the histories started under a schedule are 0, 1, 2, ... in that order; once a
    worker has returned they are all those of the batch. A worker that is given enough
    steps returns. The counter is 64 bits wide, so batch size and threads together must
    fit. *)
@@C56_once
@@C56_ends

Example C56_case :
  (dr_batchsize slab_driver + dr_threads slab_driver <= 2 ^ 64)%N
  /\ fair slab_driver (2 * N.to_nat (dr_batchsize slab_driver) + 1) turns
  /\ started (G := half_rng) slab_driver 2 (solver_start slab_driver 0) [1; 0]%nat
     = [0; 1]%N
  /\ (exists wk, In wk (sv_workers (run_schedule (G := half_rng) slab_driver 2
                                     (solver_start slab_driver 0) turns)) /\ succeeded wk).
Proof.
  split; [cbn; lia|]. split; [exact slab_fair_turns|]. split.
  - reflexivity.
  - destruct (C56_ends XRa half_rng slab_driver 2 turns 0) as (wk & Ew & _); try (cbn; lia).
    exists wk. apply nth_error_In in Ew. split; [exact Ew|].
    pose proof (slab_succeeds turns slab_fair_turns) as F. rewrite Forall_forall in F. auto.
Qed.

(** C57: the merged result is the initial estimators with the histories 0, 1, ...
    added, as if one thread had run them one after another; it is the same for any
    number of threads and any schedule. Estimators as the constructor makes them are
    blank. With zero threads no history is run. *)
@@C57_result
@@C57_serial
@@C57_threads
@@C57_created
@@C57_no_threads_refuted

Example C57_case :
  blank_set (dr_init slab_driver) /\ unique_names (dr_init slab_driver)
  /\ fair slab_driver 5 turns /\ fair slab_driver 5 greedy
  /\ exists r, serial (G := half_rng) slab_driver 2 = Ok r /\ r <> dr_init slab_driver
     /\ List.Forall succeeded (sv_workers (run_schedule (G := half_rng) slab_driver 2
                                            (solver_start slab_driver 0) turns))
     /\ List.Forall succeeded (sv_workers (run_schedule (G := half_rng) slab_driver 2
                                            (solver_start slab_driver 0) greedy)).
Proof.
  split; [exact slab_blank|]. split; [exact slab_unique|]. split; [exact slab_fair_turns|].
  split; [exact slab_fair_greedy|]. destruct nudge_fin as (k & Ek & _).
  exists (both_done k). split; [now apply slab_serial|]. split.
  - unfold both_done, tallies, tally. cbn. intros [= E _]. lra.
  - split; apply slab_succeeds; [exact slab_fair_turns|exact slab_fair_greedy].
Qed.

(** C58: histories of equal seed, whatever the estimators they are added to. *)
@@C58_reproducible

(** History 5 with seed 1 is history 2 with seed 4. *)
Example C58_case :
  let other := mkDriver (A := XRa) slab_world [more] 9 4 (tallies 9 0 0 0 0) 7 SurfaceTracking
                 near_edge in
  ((dr_seed other + 2) mod 2 ^ 64 = (dr_seed slab_driver + 5) mod 2 ^ 64)%N
  /\ (exists r, run_history (G := half_rng) slab_driver 2 (tallies 2 0 0 0 0) 5 = Ok r)
  /\ (exists r, run_history (G := half_rng) slab_driver 3 (tallies 2 1 1 0 0) 2 = Ok r).
Proof.
  split; [reflexivity|]. destruct nudge_fin as (k & Ek & _). split; eexists.
  - apply (slab_history k 0 2 0 0 0 0 5 Ek).
  - apply (slab_history k 1 2 1 1 0 0 2 Ek).
Qed.

(** C59: for the generator the program uses. Two histories of a batch collide exactly
    when they follow each other and the seed of the first is a multiple of 2147483647;
    with seeds below that number they never do. They are not independent either: the
    n-th raw numbers of two histories differ by a fixed step times the difference of their
    numbers, modulo 2147483647 (C59_lockstep). *)
@@C59_streams_refuted
@@C59_collisions
@@C59_distinct_partial
@@C59_lockstep

Example C59_case :
  (1 <= dr_seed slab_driver)%N
  /\ (dr_seed slab_driver + dr_batchsize slab_driver <= 2147483647)%N
  /\ (0 < dr_batchsize slab_driver)%N /\ (1 < dr_batchsize slab_driver)%N.
Proof. cbn. lia. Qed.

(** C60: the generator. Its period is the longest possible. *)
@@C60_range
@@C60_injective
@@C60_uniform
@@C60_period
@@C60_every_state

Example C60_case :
  minstd_seed 0 = 1%Z /\ minstd_seed 2147483648 = 1%Z /\ minstd_next 1 = 48271%Z
  /\ N.iter 10000 minstd_next (minstd_seed 1) = 399268537%Z.
Proof. repeat split; vm_compute; reflexivity. Qed.

(** C62: a second call of Solve finds the counter where the first left it, starts no
    history and returns the initial estimators. *)
@@C62_repeat_refuted
@@C62_second
@@C62_empty

Example C62_case :
  (dr_batchsize slab_driver + 2 * dr_threads slab_driver < 2 ^ 64)%N
  /\ List.Forall succeeded (sv_workers (run_schedule (G := half_rng) slab_driver 2
                                         (solver_start slab_driver 0) turns)).
Proof. split; [cbn; lia|apply slab_succeeds; exact slab_fair_turns]. Qed.
