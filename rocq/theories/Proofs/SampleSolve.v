(** Runs of the sample problem by two workers. *)
From Coq Require Import Bool String List Reals ZArith NArith Lra Lia Permutation.
From Verif Require Import Model.Num Model.Outcome Model.Rng Model.Xml Model.Std Model.Types
  Model.Bins Model.Field Model.Particle Model.World Model.Perturbation Model.Estimator Model.Transport
  Model.Driver Spec.SumSpec Spec.HistorySpec Spec.EstimatorSpec Spec.SolverSpec
  Proofs.OutcomeLib Proofs.RealLib Proofs.RngProofs Proofs.CrossingProofs Proofs.SampleProblem
  Proofs.SampleTally Proofs.SolverProofs Proofs.ResultProofs Proofs.PeriodProofs.
Import ListNotations.
Local Open Scope string_scope.
Local Open Scope R_scope.

(** The first worker takes both histories, or the workers take one each. *)
Definition greedy : list nat := [0; 0; 0; 0; 0; 1; 1; 1; 1; 1]%nat.
Definition turns : list nat := [0; 1; 0; 1; 0; 1; 0; 1; 0; 1]%nat.

Lemma slab_blank : blank_set (dr_init slab_driver).
Proof.
  intros e [<-|[]]. split; [exists 1%nat; split; reflexivity|].
  intros sn [<-|[]]. exists 1%nat. split; reflexivity.
Qed.
Lemma slab_unique : unique_names (dr_init slab_driver).
Proof.
  split.
  - repeat constructor. intros [].
  - intros e [<-|[]]. repeat constructor. intros [].
Qed.
Lemma slab_fair_greedy : fair slab_driver 5 greedy.
Proof. intros [|[|i]] H; cbn in *; lia. Qed.
Lemma slab_fair_turns : fair slab_driver 5 turns.
Proof. intros [|[|i]] H; cbn in *; lia. Qed.

Definition both_done (k : R) : estimator_set XRa :=
  tallies 2 (0 + 1 + 1) (0 + 1 + 1) (0 + effect k + effect k)
          (0 + effect k * effect k + effect k * effect k).
Lemma slab_serial k : nudge (A := XRa) = Fin k ->
  serial (G := half_rng) slab_driver 2 = Ok (both_done k).
Proof.
  intros Ek. unfold serial. change (below (dr_batchsize slab_driver)) with [0; 1]%N.
  cbn [foldM]. change (dr_init slab_driver) with (tallies 2 0 0 0 0).
  rewrite (slab_history k 0 2 0 0 0 0 0 Ek). cbn [bind].
  rewrite (slab_history k 0 2 _ _ _ _ 1 Ek). reflexivity.
Qed.
Lemma slab_succeeds schedule : fair slab_driver 5 schedule ->
  List.Forall succeeded
    (sv_workers (run_schedule (G := half_rng) slab_driver 2 (solver_start slab_driver 0) schedule)).
Proof.
  intros F. destruct nudge_fin as (k & Ek & _).
  apply (serial_succeeded slab_driver 2 ltac:(cbn; lia) schedule (both_done k)); auto.
  now apply slab_serial.
Qed.
Lemma slab_result schedule k : nudge (A := XRa) = Fin k -> fair slab_driver 5 schedule ->
  solver_result slab_driver
    (run_schedule (G := half_rng) slab_driver 2 (solver_start slab_driver 0) schedule)
  = Ok (both_done k).
Proof.
  intros Ek F. apply (C57_serial_proof half_rng slab_driver 2 schedule); auto using slab_serial.
  - cbn. lia.
  - cbn. lia.
  - exact slab_blank.
  - exact slab_unique.
Qed.

(** ** A second call of Solve *)
Lemma C62_repeat_refuted_proof :
  exists (G : Rng XRa) (dr : @driver XRa) fuel schedule schedule' r r',
  let first := run_schedule (G := G) dr fuel (solver_start dr 0) schedule in
  let second := run_schedule (G := G) dr fuel (solver_start dr (sv_counter first)) schedule' in
  List.Forall succeeded (sv_workers first) /\ solver_result dr first = Ok r
  /\ List.Forall succeeded (sv_workers second) /\ solver_result dr second = Ok r'
  /\ r <> r'.
Proof.
  destruct nudge_fin as (k & Ek & _).
  exists half_rng, slab_driver, 2%nat, turns, [0; 1]%nat, (both_done k), (dr_init slab_driver).
  set (first := run_schedule (G := half_rng) slab_driver 2 (solver_start slab_driver 0) turns).
  set (second := run_schedule (G := half_rng) slab_driver 2 (solver_start slab_driver (sv_counter first)) [0; 1]%nat).
  assert (Su : List.Forall succeeded (sv_workers first)) by apply slab_succeeds, slab_fair_turns.
  assert (C : sv_counter first = 4%N).
  { destruct (after (G := half_rng) slab_driver 2 (fun _ _ => True) I (fun _ _ _ _ _ _ => I)
      ltac:(cbn; lia) turns) as (n & ls & V & E). fold first in V.
    pose proof (iv_length _ _ _ _ _ _ V) as L. pose proof (done_all _ Su) as D.
    change (N.to_nat (dr_threads slab_driver)) with 2%nat in L. rewrite L in D.
    assert (n = dr_batchsize slab_driver) as -> by (apply (iv_done _ _ _ _ _ _ V); lia).
    destruct (iv_counter _ _ _ _ _ _ V) as [C|C]; rewrite D in C; [exact C|discriminate]. }
  assert (Su' : List.Forall succeeded (sv_workers second)).
  { unfold second. rewrite C. cbn. repeat constructor. }
  intros first0 second0. change first0 with first. change second0 with second. clear first0 second0. parts; auto.
  - now apply slab_result, slab_fair_turns.
  - apply (C62_empty_proof half_rng slab_driver 2 turns [0; 1]%nat); auto; try (cbn; lia).
    + exact slab_blank.
    + exact slab_unique.
  - unfold both_done, tallies, tally. cbn. intros [= E _]. lra.
Qed.

(** ** Two histories with one stream *)
Definition late_seed : @driver XRa :=
  mkDriver (A := XRa) slab_world [more] 2 2147483647 (tallies 2 0 0 0 0) 2 SurfaceTracking near_edge.

Lemma C59_streams_refuted_proof :
  exists (dr : @driver XRa) (i j : N),
  (1 <= dr_seed dr)%N /\ (i < dr_batchsize dr)%N /\ (j < dr_batchsize dr)%N /\ i <> j
  /\ p_rng (history_start (G := Minstd XRa) dr i) = p_rng (history_start (G := Minstd XRa) dr j).
Proof.
  exists late_seed, 0%N, 1%N. cbn [late_seed dr_seed dr_batchsize].
  split; [lia|]. split; [lia|]. split; [lia|]. split; [discriminate|].
  apply C59_collisions_proof; cbn [late_seed dr_seed dr_batchsize]; try lia.
  split; [reflexivity|]. reflexivity.
Qed.

(** ** Workers that fail *)
(** With no worker at all nothing is run and the initial estimators are returned. *)
Lemma C57_no_threads_refuted_proof :
  exists (dr : @driver XRa) fuel schedule r r',
  let sv := run_schedule (G := half_rng) dr fuel (solver_start dr 0) schedule in
  blank_set (dr_init dr) /\ unique_names (dr_init dr)
  /\ List.Forall succeeded (sv_workers sv) /\ solver_result dr sv = Ok r
  /\ serial (G := half_rng) dr fuel = Ok r' /\ r <> r'.
Proof.
  destruct nudge_fin as (k & Ek & _).
  exists (with_threads 0 slab_driver), 2%nat, [], (dr_init slab_driver), (both_done k).
  intros sv. split; [exact slab_blank|]. split; [exact slab_unique|]. split; [constructor|].
  split; [reflexivity|]. split.
  - rewrite serial_threads. now apply slab_serial.
  - unfold both_done, tallies, tally. cbn. intros [= E _]. lra.
Qed.
