(** Property C78: results in binary64 under every schedule. *)
From Coq Require Import Bool String List ZArith NArith Lia.
From Verif Require Import Model.Num Model.Outcome Model.Rng Model.Xml Model.Std Model.Types
  Model.Bins Model.Particle Model.World Model.Perturbation Model.Estimator Model.Transport
  Model.Driver Model.Schema Model.Program
  Spec.HistorySpec Spec.EstimatorSpec Spec.CountSpec Spec.SolverSpec Spec.SchemaSpec
  Proofs.CountProofs Proofs.CountProgram Proofs.SampleDouble Proofs.SampleCount.
Import ListNotations.
Local Open Scope string_scope.

(** C78: doubles count exactly up to 2^53. In every arithmetic that counts exactly up to
    a limit that the crossings do not exceed, a run that succeeds leaves in every bin the
    number of crossings in the histories and the sum of the squares of these numbers,
    whatever the schedule and the number of threads. So the results of estimators are the
    same to the last bit, and a document without sensitivities gives the same output file.
    The sums of sensitivities are rounded: they depend on the schedule. *)
Theorem C78_exact :
  forall L : Libm, counts_exactly (F64 L) (2 ^ 53).
Proof. exact C78_exact_proof. Qed.
Print Assumptions C78_exact.
Theorem C78_counts :
  forall (A : Arith) (limit : Z) (G : Rng A) (dr : @driver A) fuel schedule,
  counts_exactly A limit ->
  (dr_batchsize dr + dr_threads dr <= 2 ^ 64)%N -> (0 < dr_threads dr)%N ->
  blank_set (dr_init dr) -> unique_names (dr_init dr) ->
  let sv := run_schedule (G := G) dr fuel (solver_start dr 0) schedule in
  List.Forall succeeded (sv_workers sv) ->
  exists r hs, solver_result dr sv = Ok r
    /\ Forall2 (history (G := G) dr) (below (dr_batchsize dr)) hs
    /\ (few_crossings limit hs -> counted_set hs (dr_init dr) r).
Proof. exact C78_counts_proof. Qed.
Print Assumptions C78_counts.
Theorem C78_schedule :
  forall (A : Arith) (limit : Z) (G : Rng A) (dr : @driver A) t t' fuel fuel' schedule schedule',
  counts_exactly A limit ->
  (dr_batchsize dr + t <= 2 ^ 64)%N -> (0 < t)%N ->
  (dr_batchsize dr + t' <= 2 ^ 64)%N -> (0 < t')%N ->
  blank_set (dr_init dr) -> unique_names (dr_init dr) ->
  let one := with_threads t dr in
  let other := with_threads t' dr in
  let sv := run_schedule (G := G) one fuel (solver_start one 0) schedule in
  let sv' := run_schedule (G := G) other fuel' (solver_start other 0) schedule' in
  List.Forall succeeded (sv_workers sv) -> List.Forall succeeded (sv_workers sv') ->
  exists r r' hs, solver_result one sv = Ok r /\ solver_result other sv' = Ok r'
    /\ Forall2 (history (G := G) dr) (below (dr_batchsize dr)) hs
    /\ (few_crossings limit hs ->
        map es_scorable (ss_estimators r) = map es_scorable (ss_estimators r')
        /\ ((forall e, In e (ss_estimators (dr_init dr)) -> es_sens e = []) -> r = r')).
Proof. exact C78_schedule_proof. Qed.
Print Assumptions C78_schedule.
Theorem C78_program :
  forall (A : Arith) (limit : Z) (G : Rng A) (V : Env A) (path : string) (root : node)
         (pb : problem) hs fuel fuel' schedule schedule' effects effects',
  counts_exactly A limit ->
  agrees (env_lexical V) (env_ext V) -> open_document V path = Ok root ->
  (forall n, In n (n_children (n_child root "estimators")) ->
     n_children (n_child n "sensitivities") = []) ->
  (forall t, stoul (env_ext V) (n_text (n_child (n_child root "general") "threads")) = Ok t ->
     (t <= 2 ^ 63)%N) ->
  create_problem (G := G) V root = Ok pb ->
  Forall2 (history (G := G) (problem_driver pb)) (below (dr_batchsize (problem_driver pb))) hs ->
  few_crossings limit hs ->
  main (G := G) V [path] fuel schedule = (effects, Ok tt) ->
  main (G := G) V [path] fuel' schedule' = (effects', Ok tt) ->
  effects = effects'.
Proof. exact C78_program_proof. Qed.
Print Assumptions C78_program.
Theorem C78_sensitivity_refuted :
  exists (L : Libm) (dr : @driver (F64 L)) fuel schedule schedule' r r',
  let run := run_schedule (G := Minstd (F64 L)) dr fuel (solver_start dr 0) in
  List.Forall succeeded (sv_workers (run schedule))
  /\ List.Forall succeeded (sv_workers (run schedule'))
  /\ solver_result dr (run schedule) = Ok r /\ solver_result dr (run schedule') = Ok r'
  /\ r <> r'.
Proof. exact C78_sensitivity_refuted_proof. Qed.
Print Assumptions C78_sensitivity_refuted.

Example C78_case :
  (exists (dr : @driver D64) hs, double_driver = Ok dr
     /\ (dr_batchsize dr + dr_threads dr <= 2 ^ 64)%N /\ (0 < dr_threads dr)%N
     /\ blank_set (dr_init dr) /\ unique_names (dr_init dr)
     /\ List.Forall succeeded (sv_workers (double_run dr alone))
     /\ List.Forall succeeded (sv_workers (double_run dr alternate))
     /\ Forall2 (history (G := Minstd D64) dr) (below (dr_batchsize dr)) hs
     /\ few_crossings (2 ^ 53) hs)
  /\ agrees (env_lexical binned_env) (env_ext binned_env)
  /\ open_document binned_env "dir/binned.xml" = Ok binned
  /\ (forall n, In n (n_children (n_child binned "estimators")) ->
        n_children (n_child n "sensitivities") = [])
  /\ stoul (env_ext binned_env) (n_text (n_child (n_child binned "general") "threads")) = Ok 2%N
  /\ (exists pb hs, create_problem (G := Minstd D64) binned_env binned = Ok pb
        /\ Forall2 (history (G := Minstd D64) (problem_driver pb))
             (below (dr_batchsize (problem_driver pb))) hs
        /\ few_crossings (2 ^ 53) hs /\ dr_batchsize (problem_driver pb) = 24%N)
  /\ exists effects effects',
       binned_main alone = (effects, Ok tt) /\ binned_main alternate = (effects', Ok tt).
Proof.
  split.
  { destruct double_histories as (dr & hs & E & Fh & Few). exists dr, hs.
    destruct (double_created dr E) as (B & U & Eb & Et).
    destruct double_differs as (dr' & E' & S1 & S2 & _).
    assert (dr' = dr) as -> by (rewrite E in E'; symmetry in E'; now inversion E').
    split; [exact E|]. rewrite Et. split; [rewrite Eb; lia|]. split; [reflexivity|].
    split; [exact B|]. split; [exact U|]. split; [now apply all_succeeded_spec|].
    split; [now apply all_succeeded_spec|]. split; [exact Fh|exact Few]. }
  split; [exact binned_agrees|]. split; [exact binned_opens|]. split; [exact binned_plain|].
  split; [reflexivity|]. split; [exact binned_histories|exact binned_runs].
Qed.
