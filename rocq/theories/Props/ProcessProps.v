(** Property C87: several problems in one process. *)
From Coq Require Import Bool String List Reals ZArith NArith Lra Lia.
From Verif Require Import Model.Num Model.Outcome Model.Rng Model.Xml Model.Std Model.Point
  Model.Surface Model.Types Model.Bins Model.Field Model.Particle Model.Multigroup
  Model.Continuous Model.Material Model.World Model.Perturbation Model.Estimator Model.Transport
  Model.Driver Model.Schema Model.Program Model.Process
  Spec.Vec Spec.CellSpec Spec.GeometrySpec Spec.RngSpec Spec.SumSpec Spec.MultigroupSpec
  Spec.MaterialSpec Spec.TextExt Spec.TransportSpec Spec.EstimatorSpec Spec.SolverSpec
  Spec.FrequencySpec Spec.BeamSpec Spec.ProcessSpec
  Proofs.RealLib Proofs.GeometryProofs Proofs.CrossingProofs Proofs.RngProofs Proofs.SampleProblem
  Proofs.SampleTally Proofs.BeamProofs Proofs.ProcessProofs.
Import ListNotations.
Local Open Scope string_scope.
Local Open Scope R_scope.

(** C87 *)
Theorem C87_method :
  forall (A : Arith) (G : Rng A) (V : Env A) before path between i fuel schedule,
  answer_after (G := G) V before (CreateProblem path) = Created (Ok i) -> unsolved i between ->
  forall others path' later t, (CreateProblem path :: between = others ++ CreateProblem path' :: later)%list ->
  file_method V path' = Some t ->
  (forall path'', In (CreateProblem path'') later -> file_method V path'' = None) ->
  exists root pb, open_document V path = Ok root /\ create_problem (G := G) V root = Ok pb
    /\ answer_after (G := G) V (before ++ CreateProblem path :: between) (SolveProblem i fuel schedule)
       = Solved (solve (tracked_by t pb) fuel schedule).
Proof. exact C87_method_proof. Qed.
Print Assumptions C87_method.
Theorem C87_independent_partial :
  forall (A : Arith) (G : Rng A) (V : Env A) before path between i fuel schedule,
  answer_after (G := G) V before (CreateProblem path) = Created (Ok i) -> unsolved i between ->
  (forall path', In (CreateProblem path') between ->
     file_method V path' = None \/ file_method V path' = file_method V path) ->
  exists root pb, open_document V path = Ok root /\ create_problem (G := G) V root = Ok pb
    /\ answer_after (G := G) V (before ++ CreateProblem path :: between) (SolveProblem i fuel schedule)
       = Solved (solve pb fuel schedule).
Proof. exact C87_independent_partial_proof. Qed.
Print Assumptions C87_independent_partial.
(** The problem of [path] is solved in one process alone, and in another after the problem
    of [path'] was created: the first run finds that all neutrons leave, the second none. *)
Theorem C87_independent_refuted :
  exists (G : Rng XRa) (V : Env XRa) path path' fuel schedule r r',
  answer_after (G := G) V [CreateProblem path] (SolveProblem 0 fuel schedule) = Solved (Ok r)
  /\ answer_after (G := G) V [CreateProblem path; CreateProblem path'] (SolveProblem 0 fuel schedule)
     = Solved (Ok r')
  /\ exists e e', ss_estimators r = [e] /\ ss_estimators r' = [e']
       /\ nth_error (sc_means (es_scorable e) (ss_weight r)) 0 = Some (Fin 1)
       /\ nth_error (sc_means (es_scorable e') (ss_weight r')) 0 = Some (Fin 0).
Proof. exact C87_independent_refuted_proof. Qed.
Print Assumptions C87_independent_refuted.

(** C62, for the calls of the interface: the second Solve of a problem gives the estimators as
    they were before the first. *)
Theorem C62_interface :
  forall (G : Rng XRa) (V : Env XRa) before path i root dr fuel schedule r schedule' r',
  let calls := (before ++ [CreateProblem path])%list in
  answer_after (G := G) V before (CreateProblem path) = Created (Ok i) ->
  open_document V path = Ok root -> create_problem (G := G) V root = Ok (FixedProblem dr) ->
  (dr_batchsize dr + 2 * dr_threads dr < 2 ^ 64)%N -> (0 < dr_threads dr)%N ->
  blank_set (dr_init dr) -> unique_names (dr_init dr) ->
  answer_after (G := G) V calls (SolveProblem i fuel schedule) = Solved (Ok r) ->
  answer_after (G := G) V (calls ++ [SolveProblem i fuel schedule]) (SolveProblem i fuel schedule')
  = Solved (Ok r') ->
  r' = dr_init dr.
Proof. exact C62_interface_proof. Qed.
Print Assumptions C62_interface.

(** The problem is read between one of another tracking method, which is solved, and a
    second copy of itself, which is solved first. *)
Example C87_case :
  let before := [CreateProblem "b.xml"; SolveProblem 0 2 even] in
  let between := [CreateProblem "a.xml"; CreateProblem "missing.xml"; SolveProblem 2 2 even] in
  answer_after (G := exact_rng) two_files before (CreateProblem "a.xml") = Created (Ok 1%nat)
  /\ unsolved 1 between
  /\ (forall path', In (CreateProblem path') between ->
        file_method two_files path' = None \/ file_method two_files path' = file_method two_files "a.xml")
  /\ file_method two_files "a.xml" = Some SurfaceTracking
  /\ file_method two_files "b.xml" = Some CellDeltaTracking.
Proof.
  cbv zeta. split; [|split; [|split]].
  - destruct (file_created [CreateProblem "b.xml"; SolveProblem 0 2 even]) as (i & -> & ->).
    rewrite problems_created. reflexivity.
  - intros fuel schedule [E|[E|[E|[]]]]; discriminate.
  - intros path' [E|[E|[E|[]]]]; try discriminate; injection E as <-; auto.
  - exact file_methods.
Qed.

(** The same problem solved twice: one hundred percent leave, then nothing is counted. *)
Example C62_interface_case :
  let calls := [CreateProblem "a.xml"] in
  exists r, answer_after (G := exact_rng) two_files calls (SolveProblem 0 2 even) = Solved (Ok r)
  /\ answer_after (G := exact_rng) two_files (calls ++ [SolveProblem 0 2 even]) (SolveProblem 0 2 even)
     = Solved (Ok (dr_init (near_driver SurfaceTracking)))
  /\ (exists e, ss_estimators r = [e] /\ nth_error (sc_means (es_scorable e) (ss_weight r)) 0 = Some (Fin 1)).
Proof. exact C62_interface_example. Qed.
