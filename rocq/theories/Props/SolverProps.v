(** Properties C56-C60 and C62: the workers of the fixed-source solver, and the random
    numbers of histories. *)
From Coq Require Import Bool String List Reals ZArith NArith Lra Lia Permutation.
From Verif Require Import Model.Num Model.Outcome Model.Rng Model.Xml Model.Std Model.Point
  Model.Surface Model.Types Model.Bins Model.Field Model.Particle Model.Material Model.World
  Model.Perturbation Model.Estimator Model.Transport Model.Driver
  Spec.SumSpec Spec.RngSpec Spec.TextExt Spec.TransportSpec Spec.HistorySpec Spec.EstimatorSpec
  Spec.SolverSpec
  Proofs.RealLib Proofs.RngProofs Proofs.CrossingProofs Proofs.SampleProblem
  Proofs.SampleTally Proofs.SolverProofs Proofs.ResultProofs Proofs.PeriodProofs
  Proofs.SampleSolve.
Import ListNotations.
Local Open Scope string_scope.
Local Open Scope R_scope.

(** C56: the histories started under a schedule are 0, 1, 2, ... in that order; once a
    worker has returned they are all those of the batch. A worker that is given enough
    steps returns. The counter is 64 bits wide, so batch size and threads together must
    fit. *)
Theorem C56_once :
  forall (A : Arith) (G : Rng A) (dr : @driver A) fuel schedule,
  (dr_batchsize dr + dr_threads dr <= 2 ^ 64)%N ->
  let sv := run_schedule (G := G) dr fuel (solver_start dr 0) schedule in
  let ids := started (G := G) dr fuel (solver_start dr 0) schedule in
  (exists k, (k <= dr_batchsize dr)%N /\ ids = below k)
  /\ NoDup ids
  /\ (forall h, In h ids -> (h < dr_batchsize dr)%N)
  /\ ((exists wk, In wk (sv_workers sv) /\ succeeded wk) -> ids = below (dr_batchsize dr)).
Proof. exact C56_once_proof. Qed.
Print Assumptions C56_once.
Theorem C56_ends :
  forall (A : Arith) (G : Rng A) (dr : @driver A) fuel schedule i,
  (dr_batchsize dr + dr_threads dr <= 2 ^ 64)%N ->
  (i < N.to_nat (dr_threads dr))%nat ->
  (2 * N.to_nat (dr_batchsize dr) + 1 <= count_occ Nat.eq_dec schedule i)%nat ->
  exists wk,
    nth_error (sv_workers (run_schedule (G := G) dr fuel (solver_start dr 0) schedule)) i = Some wk
    /\ finished wk.
Proof. exact C56_ends_proof. Qed.
Print Assumptions C56_ends.

Example C56_case :
  (dr_batchsize slab_driver + dr_threads slab_driver <= 2 ^ 64)%N
  /\ fair slab_driver (2 * N.to_nat (dr_batchsize slab_driver) + 1) turns
  /\ started (G := half_rng) slab_driver 2 (solver_start slab_driver 0) [1; 0]%nat
     = [0; 1]%N
  /\ (exists wk, In wk (sv_workers (run_schedule (G := half_rng) slab_driver 2
                                     (solver_start slab_driver 0) turns)) /\ succeeded wk).
Proof.
  split; [cbn; lia|]. split; [exact slab_fair_turns|]. split.
  - reflexivity.
  - destruct (C56_ends XRa half_rng slab_driver 2 turns 0) as (wk & Ew & _); try (cbn; lia).
    exists wk. apply nth_error_In in Ew. split; [exact Ew|].
    pose proof (slab_succeeds turns slab_fair_turns) as F. rewrite Forall_forall in F. auto.
Qed.

(** C57: the merged result is the initial estimators with the histories 0, 1, ...
    added, as if one thread had run them one after another; it is the same for any
    number of threads and any schedule. Estimators as the constructor makes them are
    blank. With zero threads no history is run. *)
Theorem C57_result :
  forall (G : Rng XRa) (dr : @driver XRa) fuel schedule,
  (dr_batchsize dr + dr_threads dr <= 2 ^ 64)%N -> (0 < dr_threads dr)%N ->
  blank_set (dr_init dr) -> unique_names (dr_init dr) ->
  let sv := run_schedule (G := G) dr fuel (solver_start dr 0) schedule in
  List.Forall succeeded (sv_workers sv) ->
  exists r hs, solver_result dr sv = Ok r
    /\ Forall2 (history (G := G) dr) (below (dr_batchsize dr)) hs
    /\ scored_set hs (dr_init dr) r.
Proof. exact C57_result_proof. Qed.
Print Assumptions C57_result.
Theorem C57_serial :
  forall (G : Rng XRa) (dr : @driver XRa) fuel schedule r,
  (dr_batchsize dr + dr_threads dr <= 2 ^ 64)%N -> (0 < dr_threads dr)%N ->
  blank_set (dr_init dr) -> unique_names (dr_init dr) ->
  fair dr (2 * N.to_nat (dr_batchsize dr) + 1) schedule ->
  serial (G := G) dr fuel = Ok r ->
  solver_result dr (run_schedule (G := G) dr fuel (solver_start dr 0) schedule) = Ok r.
Proof. exact C57_serial_proof. Qed.
Print Assumptions C57_serial.
Theorem C57_threads :
  forall (G : Rng XRa) (dr : @driver XRa) t t' fuel fuel' schedule schedule' ,
  (dr_batchsize dr + t <= 2 ^ 64)%N -> (0 < t)%N ->
  (dr_batchsize dr + t' <= 2 ^ 64)%N -> (0 < t')%N ->
  blank_set (dr_init dr) -> unique_names (dr_init dr) ->
  let one := with_threads t dr in
  let other := with_threads t' dr in
  let sv := run_schedule (G := G) one fuel (solver_start one 0) schedule in
  let sv' := run_schedule (G := G) other fuel' (solver_start other 0) schedule' in
  List.Forall succeeded (sv_workers sv) -> List.Forall succeeded (sv_workers sv') ->
  exists r, solver_result one sv = Ok r /\ solver_result other sv' = Ok r.
Proof. exact C57_threads_proof. Qed.
Print Assumptions C57_threads.
Theorem C57_created :
  forall (A : Arith) (X : Ext A) (root source_node : node) (dr : @driver A),
  driver_create X root source_node = Ok dr ->
  let attribute n := as_string (n_attr n "name") in
  let estimators := n_children (n_child root "estimators") in
  blank_set (dr_init dr)
  /\ (NoDup (map attribute estimators) ->
      (forall n, In n estimators ->
         NoDup (map attribute (n_children (n_child n "sensitivities")))) ->
      unique_names (dr_init dr))
  /\ (exists z, stoi X (n_text (n_child (n_child root "general") "histories")) = Ok z
      /\ dr_batchsize dr = of_int z).
Proof. exact C57_created_proof. Qed.
Print Assumptions C57_created.
Theorem C57_no_threads_refuted :
  exists (dr : @driver XRa) fuel schedule r r',
  let sv := run_schedule (G := half_rng) dr fuel (solver_start dr 0) schedule in
  blank_set (dr_init dr) /\ unique_names (dr_init dr)
  /\ List.Forall succeeded (sv_workers sv) /\ solver_result dr sv = Ok r
  /\ serial (G := half_rng) dr fuel = Ok r' /\ r <> r'.
Proof. exact C57_no_threads_refuted_proof. Qed.
Print Assumptions C57_no_threads_refuted.

Example C57_case :
  blank_set (dr_init slab_driver) /\ unique_names (dr_init slab_driver)
  /\ fair slab_driver 5 turns /\ fair slab_driver 5 greedy
  /\ exists r, serial (G := half_rng) slab_driver 2 = Ok r /\ r <> dr_init slab_driver
     /\ List.Forall succeeded (sv_workers (run_schedule (G := half_rng) slab_driver 2
                                            (solver_start slab_driver 0) turns))
     /\ List.Forall succeeded (sv_workers (run_schedule (G := half_rng) slab_driver 2
                                            (solver_start slab_driver 0) greedy)).
Proof.
  split; [exact slab_blank|]. split; [exact slab_unique|]. split; [exact slab_fair_turns|].
  split; [exact slab_fair_greedy|]. destruct nudge_fin as (k & Ek & _).
  exists (both_done k). split; [now apply slab_serial|]. split.
  - unfold both_done, tallies, tally. cbn. intros [= E _]. lra.
  - split; apply slab_succeeds; [exact slab_fair_turns|exact slab_fair_greedy].
Qed.

(** C58: histories of equal seed, whatever the estimators they are added to. *)
Theorem C58_reproducible :
  forall (A : Arith) (G : Rng A) (dr dr' : @driver A) fuel fuel' i j (a a' b b' : estimator_set A),
  dr_world dr' = dr_world dr -> dr_perts dr' = dr_perts dr ->
  dr_tracking dr' = dr_tracking dr -> dr_source dr' = dr_source dr ->
  ((dr_seed dr' + j) mod 2 ^ 64 = (dr_seed dr + i) mod 2 ^ 64)%N ->
  run_history (G := G) dr fuel a i = Ok a' -> run_history (G := G) dr' fuel' b j = Ok b' ->
  exists evs : list (particle A G), history dr i evs /\ history dr' j evs
    /\ run_events a evs = Ok a' /\ run_events b evs = Ok b'.
Proof. exact C58_reproducible_proof. Qed.
Print Assumptions C58_reproducible.

(** History 5 with seed 1 is history 2 with seed 4. *)
Example C58_case :
  let other := mkDriver (A := XRa) slab_world [more] 9 4 (tallies 9 0 0 0 0) 7 SurfaceTracking
                 near_edge in
  ((dr_seed other + 2) mod 2 ^ 64 = (dr_seed slab_driver + 5) mod 2 ^ 64)%N
  /\ (exists r, run_history (G := half_rng) slab_driver 2 (tallies 2 0 0 0 0) 5 = Ok r)
  /\ (exists r, run_history (G := half_rng) slab_driver 3 (tallies 2 1 1 0 0) 2 = Ok r).
Proof.
  split; [reflexivity|]. destruct nudge_fin as (k & Ek & _). split; eexists.
  - apply (slab_history k 0 2 0 0 0 0 5 Ek).
  - apply (slab_history k 1 2 1 1 0 0 2 Ek).
Qed.

(** C59: for the generator the program uses. Two histories of a batch collide exactly
    when they follow each other and the seed of the first is a multiple of 2147483647;
    with seeds below that number they never do. They are not independent either: the
    n-th raw numbers of two histories differ by a fixed step times the difference of their
    numbers, modulo 2147483647 (C59_lockstep). *)
Theorem C59_streams_refuted :
  exists (dr : @driver XRa) (i j : N),
  (1 <= dr_seed dr)%N /\ (i < dr_batchsize dr)%N /\ (j < dr_batchsize dr)%N /\ i <> j
  /\ p_rng (history_start (G := Minstd XRa) dr i) = p_rng (history_start (G := Minstd XRa) dr j).
Proof. exact C59_streams_refuted_proof. Qed.
Print Assumptions C59_streams_refuted.
Theorem C59_collisions :
  forall (A : Arith) (dr : @driver A) (i j : N),
  (dr_seed dr + dr_batchsize dr <= 2 ^ 64)%N -> (dr_batchsize dr <= 2147483646)%N ->
  (i < j)%N -> (j < dr_batchsize dr)%N ->
  p_rng (history_start (G := Minstd A) dr i) = p_rng (history_start (G := Minstd A) dr j)
  <-> (j = i + 1 /\ (dr_seed dr + i) mod 2147483647 = 0)%N.
Proof. exact C59_collisions_proof. Qed.
Print Assumptions C59_collisions.
Theorem C59_distinct_partial :
  forall (A : Arith) (dr : @driver A) (i j : N),
  (1 <= dr_seed dr)%N -> (dr_seed dr + dr_batchsize dr <= 2147483647)%N ->
  (i < dr_batchsize dr)%N -> (j < dr_batchsize dr)%N -> i <> j ->
  p_rng (history_start (G := Minstd A) dr i) <> p_rng (history_start (G := Minstd A) dr j).
Proof. exact C59_distinct_partial_proof. Qed.
Print Assumptions C59_distinct_partial.
Theorem C59_lockstep :
  forall (A : Arith) (dr : @driver A),
  (1 <= dr_seed dr)%N -> (dr_seed dr + dr_batchsize dr <= 2147483647)%N ->
  let raw (n : N) (i : N) : Z :=
    fst (rraw (Minstd A) (after_raw (Minstd A) n (p_rng (history_start (G := Minstd A) dr i)))) in
  forall n : N, exists step : Z, (1 <= step < 2147483647)%Z
  /\ forall i j : N, (i < dr_batchsize dr)%N -> (j < dr_batchsize dr)%N ->
     ((raw n j - raw n i) mod 2147483647 = (step * (Z.of_N j - Z.of_N i)) mod 2147483647)%Z.
Proof. exact C59_lockstep_proof. Qed.
Print Assumptions C59_lockstep.

Example C59_case :
  (1 <= dr_seed slab_driver)%N
  /\ (dr_seed slab_driver + dr_batchsize slab_driver <= 2147483647)%N
  /\ (0 < dr_batchsize slab_driver)%N /\ (1 < dr_batchsize slab_driver)%N.
Proof. cbn. lia. Qed.

(** C60: the generator. Its period is the longest possible. *)
Theorem C60_range :
  forall (seed : Z) (n : N), (1 <= N.iter n minstd_next (minstd_seed seed) <= 2147483646)%Z.
Proof. exact C60_range_proof. Qed.
Print Assumptions C60_range.
Theorem C60_injective :
  forall (A : Arith) (s t : rst (Minstd A)),
  snd (rraw (Minstd A) s) = snd (rraw (Minstd A) t) -> s = t.
Proof. exact C60_injective_proof. Qed.
Print Assumptions C60_injective.
Theorem C60_uniform :
  forall s : rst (Minstd XRa), exists u, fst (runif (Minstd XRa) s) = Fin u /\ (0 < u < 1)%R.
Proof. exact C60_uniform_proof. Qed.
Print Assumptions C60_uniform.
Theorem C60_period :
  forall (A : Arith) (s : rst (Minstd A)) (n : N),
  after_raw (Minstd A) n s = s <-> (2147483646 | n)%N.
Proof. exact C60_period_proof. Qed.
Print Assumptions C60_period.
Theorem C60_every_state :
  forall (A : Arith) (s t : rst (Minstd A)), exists n : N,
  (n < 2147483646)%N /\ after_raw (Minstd A) n s = t.
Proof. exact C60_every_state_proof. Qed.
Print Assumptions C60_every_state.

Example C60_case :
  minstd_seed 0 = 1%Z /\ minstd_seed 2147483648 = 1%Z /\ minstd_next 1 = 48271%Z
  /\ N.iter 10000 minstd_next (minstd_seed 1) = 399268537%Z.
Proof. repeat split; vm_compute; reflexivity. Qed.

(** C62: a second call of Solve finds the counter where the first left it, starts no
    history and returns the initial estimators. *)
Theorem C62_repeat_refuted :
  exists (G : Rng XRa) (dr : @driver XRa) fuel schedule schedule' r r',
  let first := run_schedule (G := G) dr fuel (solver_start dr 0) schedule in
  let second := run_schedule (G := G) dr fuel (solver_start dr (sv_counter first)) schedule' in
  List.Forall succeeded (sv_workers first) /\ solver_result dr first = Ok r
  /\ List.Forall succeeded (sv_workers second) /\ solver_result dr second = Ok r'
  /\ r <> r'.
Proof. exact C62_repeat_refuted_proof. Qed.
Print Assumptions C62_repeat_refuted.
Theorem C62_second :
  forall (A : Arith) (G : Rng A) (dr : @driver A) fuel schedule schedule',
  (dr_batchsize dr + 2 * dr_threads dr < 2 ^ 64)%N -> (0 < dr_threads dr)%N ->
  let first := run_schedule (G := G) dr fuel (solver_start dr 0) schedule in
  List.Forall succeeded (sv_workers first) ->
  let again := solver_start dr (sv_counter first) in
  started (G := G) dr fuel again schedule' = []
  /\ forall wk, In wk (sv_workers (run_schedule (G := G) dr fuel again schedule')) ->
     wk = Idle (dr_init dr) \/ wk = Done (dr_init dr).
Proof. exact C62_second_proof. Qed.
Print Assumptions C62_second.
Theorem C62_empty :
  forall (G : Rng XRa) (dr : @driver XRa) fuel schedule schedule',
  (dr_batchsize dr + 2 * dr_threads dr < 2 ^ 64)%N -> (0 < dr_threads dr)%N ->
  blank_set (dr_init dr) -> unique_names (dr_init dr) ->
  let first := run_schedule (G := G) dr fuel (solver_start dr 0) schedule in
  let second := run_schedule (G := G) dr fuel (solver_start dr (sv_counter first)) schedule' in
  List.Forall succeeded (sv_workers first) -> List.Forall succeeded (sv_workers second) ->
  solver_result dr second = Ok (dr_init dr).
Proof. exact C62_empty_proof. Qed.
Print Assumptions C62_empty.

Example C62_case :
  (dr_batchsize slab_driver + 2 * dr_threads slab_driver < 2 ^ 64)%N
  /\ List.Forall succeeded (sv_workers (run_schedule (G := half_rng) slab_driver 2
                                         (solver_start slab_driver 0) turns)).
Proof. split; [cbn; lia|apply slab_succeeds; exact slab_fair_turns]. Qed.
