(** Properties C75-C77: documents that follow the schema, and the output file. *)
From Coq Require Import Bool String Ascii List Reals ZArith NArith Lra Lia.
From Verif Require Import Model.Num Model.Outcome Model.Rng Model.Xml Model.Std Model.Point
  Model.Surface Model.Types Model.Bins Model.Field Model.Particle Model.Multigroup
  Model.Continuous Model.Material Model.World Model.Perturbation Model.Estimator Model.Transport
  Model.Driver Model.Schema Model.Program
  Spec.TextExt Spec.WorldSpec Spec.EstimatorSpec Spec.SolverSpec Spec.SchemaSpec Spec.ProgramSpec
  Proofs.RealLib Proofs.RngProofs Proofs.CrossingProofs Proofs.SampleProblem Proofs.SampleTally
  Proofs.SampleDocument Proofs.ResultProofs Proofs.SampleSolve Proofs.SchemaLib Proofs.SchemaProofs
  Proofs.ProgramProofs Proofs.SampleProgram.
Import ListNotations.
Local Open Scope string_scope.

(** C75: building the problem from a document that follows the schema never has undefined
    behaviour, if the tables in the data files have no empty axis. If moreover the document
    is usable, the problem is built or an exception is thrown that main's caller sees. The
    numbers of histories and of threads are positive. Without the first condition the
    behaviour can be undefined; without the second the program can abort inside a
    constructor that must not throw. *)
Theorem C75_defined :
  forall (A : Arith) (G : Rng A) (V : Env A) (path : string) (root : node),
  library_returns (env_ext V) -> no_empty_axis (env_ext V) ->
  open_document V path = Ok root ->
  defined (create_problem (G := G) V root).
Proof. exact C75_defined_proof. Qed.
Print Assumptions C75_defined.
Theorem C75_reported_partial :
  forall (A : Arith) (G : Rng A) (V : Env A) (path : string) (root : node),
  library_returns (env_ext V) -> no_empty_axis (env_ext V) ->
  open_document V path = Ok root -> usable (env_ext V) root ->
  reported (create_problem (G := G) V root).
Proof. exact C75_reported_partial_proof. Qed.
Print Assumptions C75_reported_partial.
Theorem C75_fields :
  forall (A : Arith) (G : Rng A) (V : Env A) (path : string) (root : node) (pb : problem (G := G)),
  agrees (env_lexical V) (env_ext V) -> open_document V path = Ok root ->
  create_problem V root = Ok pb ->
  let dr := problem_driver pb in
  (0 < dr_batchsize dr < 2 ^ 31)%N /\ (0 < dr_threads dr < 2 ^ 64)%N
  /\ (named_sensitivities root -> unique_names (dr_init dr)).
Proof. exact C75_fields_proof. Qed.
Print Assumptions C75_fields.
Theorem C75_abort_refuted :
  exists (V : Env XRa) (path : string) (root : node),
  library_returns (env_ext V) /\ no_empty_axis (env_ext V) /\ open_document V path = Ok root
  /\ create_problem (G := half_rng) V root = Terminate.
Proof. exact C75_abort_refuted_proof. Qed.
Print Assumptions C75_abort_refuted.
Theorem C75_empty_axis_refuted :
  exists (V : Env XRa) (path : string) (root : node),
  library_returns (env_ext V) /\ open_document V path = Ok root
  /\ create_problem (G := half_rng) V root = UB.
Proof. exact C75_empty_axis_refuted_proof. Qed.
Print Assumptions C75_empty_axis_refuted.

Example C75_case :
  let V := slab_env slab_ext slab_xml in
  library_returns (env_ext V) /\ no_empty_axis (env_ext V)
  /\ open_document V "dir/slab.xml" = Ok slab_fixed
  /\ usable (env_ext V) slab_fixed /\ agrees (env_lexical V) (env_ext V)
  /\ named_sensitivities slab_fixed
  /\ create_problem (G := half_rng) V slab_fixed = Ok (FixedProblem slab_driver)
  /\ open_document (slab_env slab_ext (Elem "minimc" [] [] "")) "dir/slab.xml" = Throw "not valid".
Proof.
  cbv zeta. split; [apply text_returns|]. split; [exact slab_axes|]. split; [exact slab_opens|].
  split; [exact slab_usable|]. split; [exact slab_agrees|]. split; [exact slab_named|].
  split; [apply slab_problem_created|]. reflexivity.
Qed.

(** C76: a run that succeeds leaves a file whose name is that of the document with the
    extension .out, and whose lines are the number of histories and then, for every
    estimator in the order of the document, its name, bins, means and deviations and those
    of its sensitivities. There are as many numbers in a row as there are bins. *)
Theorem C76_report :
  forall (A : Arith) (G : Rng A) (V : Env A) (path : string) (root : node)
         (pb : problem (G := G)) fuel schedule r (before : files),
  open_document V path = Ok root -> create_problem V root = Ok pb ->
  solve pb fuel schedule = Ok r ->
  env_writable V (out_path path) = true ->
  (forall x, one_line (env_sci V x)) -> plain_names root ->
  let (effects, ending) := main (G := G) V [path] fuel schedule in
  ending = Ok tt
  /\ exists text, after before effects (out_path path) = Some text
     /\ lines text
        = (report (env_sci V) (dr_batchsize (problem_driver pb)) r ++ [""])%list.
Proof. exact C76_report_proof. Qed.
Print Assumptions C76_report.
Theorem C76_layout :
  forall (A : Arith) (G : Rng A) (V : Env A) (root : node) (pb : problem (G := G)) fuel schedule r,
  create_problem V root = Ok pb -> solve pb fuel schedule = Ok r ->
  laid_out (env_ext V) root (nofN (dr_batchsize (problem_driver pb))) r.
Proof. exact C76_layout_proof. Qed.
Print Assumptions C76_layout.
Theorem C76_name :
  (forall dir name extension, directory dir -> without "/" name -> name <> "" ->
     without "/" extension -> without "." extension -> (name ++ "." ++ extension) <> ".." ->
     out_path (dir ++ name ++ "." ++ extension) = dir ++ name ++ ".out")
  /\ (forall dir name, directory dir -> without "/" name -> without "." name ->
     out_path (dir ++ name) = dir ++ name ++ ".out")
  /\ (forall dir name, directory dir -> without "/" name -> without "." name ->
     out_path (dir ++ "." ++ name) = dir ++ "." ++ name ++ ".out")
  /\ (forall path, out_path path = path -> exists p, path = p ++ ".out").
Proof. exact C76_name_proof. Qed.
Print Assumptions C76_name.

Example C76_case :
  let V := slab_env slab_ext slab_xml in
  out_path "dir/slab.xml" = "dir/slab.out" /\ out_path "a.b/c.d.xml" = "a.b/c.d.out"
  /\ out_path "a.b/c" = "a.b/c.out" /\ out_path "a/.hidden" = "a/.hidden.out"
  /\ (forall x, one_line (env_sci V x)) /\ plain_names slab_fixed
  /\ exists r, solve (G := half_rng) (FixedProblem slab_driver) 2 turns = Ok r
     /\ report (env_sci V) 2 r
        = ["2"; "";
           "through"; "======="; "";
           "cosine"; "------"; "none"; ""; "energy"; "------"; "none"; "";
           "mean"; "----"; "1.0e+00, "; ""; "std dev"; "-------"; "1.0e+00, "; "";
           "through::more"; "============="; "";
           "mean"; "----"; "1.0e+00, "; ""; "std dev"; "-------"; "1.0e+00, "; ""; "";
           ""].
Proof.
  cbv zeta. do 4 (split; [reflexivity|]). split; [exact slab_sci_plain|]. split; [exact slab_plain|].
  destruct nudge_fin as (k & Ek & _). exists (both_done k).
  split; [apply (slab_result turns k Ek slab_fair_turns)|]. apply slab_report.
Qed.

(** C77: whatever the schedule of the workers, every successful run of the program makes
    the same changes to files: those of one thread that runs the histories one after
    another. At every crash point all files but the output file are as before, and the
    output file is as before, empty, or the start of the complete one. Nothing changes
    before the document has been read and the problem built. But the earlier results are
    lost when a run crashes, a file that cannot be written is not reported, and a document
    whose name ends in .out is overwritten. *)
Theorem C77_same :
  forall (G : Rng XRa) (V : Env XRa) (path : string) (root : node)
         fuel fuel' schedule schedule' effects effects',
  agrees (env_lexical V) (env_ext V) ->
  open_document V path = Ok root -> named_sensitivities root ->
  (forall t, stoul (env_ext V) (n_text (n_child (n_child root "general") "threads")) = Ok t ->
     (t <= 2 ^ 63)%N) ->
  main (G := G) V [path] fuel schedule = (effects, Ok tt) ->
  main (G := G) V [path] fuel' schedule' = (effects', Ok tt) ->
  effects = effects'.
Proof. exact C77_same_proof. Qed.
Print Assumptions C77_same.
Theorem C77_serial :
  forall (G : Rng XRa) (V : Env XRa) (path : string) (root : node) (dr : @driver XRa)
         fuel schedule r,
  agrees (env_lexical V) (env_ext V) ->
  open_document V path = Ok root -> named_sensitivities root ->
  create_problem (G := G) V root = Ok (FixedProblem dr) ->
  (dr_threads dr <= 2 ^ 63)%N -> env_writable V (out_path path) = true ->
  serial (G := G) dr fuel = Ok r -> fair dr (2 * N.to_nat (dr_batchsize dr) + 1) schedule ->
  main (G := G) V [path] fuel schedule
  = ([Truncated (out_path path);
      Appended (out_path path) (show_N (dr_batchsize dr) ++ newline);
      Appended (out_path path) (set_text (env_sci V) r)], Ok tt).
Proof. exact C77_serial_proof. Qed.
Print Assumptions C77_serial.
Theorem C77_only_output :
  forall (A : Arith) (G : Rng A) (V : Env A) arguments fuel schedule (before now : files) file,
  crashed before (fst (main (G := G) V arguments fuel schedule)) now ->
  (forall path, arguments = [path] -> file <> out_path path) ->
  now file = before file.
Proof. exact C77_only_output_proof. Qed.
Print Assumptions C77_only_output.
Theorem C77_prefix :
  forall (A : Arith) (G : Rng A) (V : Env A) (path : string) fuel schedule (before now : files),
  let (effects, ending) := main (G := G) V [path] fuel schedule in
  let out := out_path path in
  crashed before effects now ->
  now out = before out \/ now out = Some ""
  \/ ending = Ok tt /\ exists part whole,
       now out = Some part /\ after before effects out = Some whole /\ starts part whole.
Proof. exact C77_prefix_proof. Qed.
Print Assumptions C77_prefix.
Theorem C77_first :
  forall (A : Arith) (G : Rng A) (V : Env A) arguments fuel schedule (before now : files) file,
  crashed before (fst (main (G := G) V arguments fuel schedule)) now ->
  now file <> before file ->
  exists path root pb, arguments = [path] /\ open_document V path = Ok root
    /\ create_problem (G := G) V root = Ok pb.
Proof. exact C77_first_proof. Qed.
Print Assumptions C77_first.
Theorem C77_lost_refuted :
  exists (V : Env XRa) (path : string) fuel schedule (before now : files) old,
  before (out_path path) = Some old /\ old <> ""
  /\ crashed before (fst (main (G := half_rng) V [path] fuel schedule)) now
  /\ now (out_path path) = Some "".
Proof. exact C77_lost_refuted_proof. Qed.
Print Assumptions C77_lost_refuted.
Theorem C77_silent_refuted :
  exists (V : Env XRa) (path : string) fuel schedule (before : files),
  let (effects, ending) := main (G := half_rng) V [path] fuel schedule in
  ending = Ok tt /\ after before effects (out_path path) = None.
Proof. exact C77_silent_refuted_proof. Qed.
Print Assumptions C77_silent_refuted.
Theorem C77_input_refuted :
  exists (V : Env XRa) (path : string) fuel schedule (before : files) input,
  before path = Some input
  /\ let (effects, ending) := main (G := half_rng) V [path] fuel schedule in
     ending = Ok tt /\ after before effects path <> Some input.
Proof. exact C77_input_refuted_proof. Qed.
Print Assumptions C77_input_refuted.

Example C77_case :
  let V := slab_env slab_ext slab_xml in
  agrees (env_lexical V) (env_ext V) /\ open_document V "dir/slab.xml" = Ok slab_fixed
  /\ named_sensitivities slab_fixed
  /\ stoul (env_ext V) (n_text (n_child (n_child slab_fixed "general") "threads")) = Ok 2%N
  /\ exists effects,
     main (G := half_rng) V ["dir/slab.xml"] 2 turns = (effects, Ok tt)
     /\ main (G := half_rng) V ["dir/slab.xml"] 2 greedy = (effects, Ok tt)
     /\ hd_error effects = Some (Truncated "dir/slab.out").
Proof.
  cbv zeta. split; [exact slab_agrees|]. split; [exact slab_opens|]. split; [exact slab_named|].
  split; [reflexivity|]. destruct nudge_fin as (k & Ek & _). eexists.
  split; [apply (slab_main "dir/slab.xml" true k turns Ek slab_fair_turns)|].
  split; [apply (slab_main "dir/slab.xml" true k greedy Ek slab_fair_greedy)|]. reflexivity.
Qed.
