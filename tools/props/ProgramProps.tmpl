(** Properties C75-C77: documents that follow the schema, and the output file. *)
From Coq Require Import Bool String Ascii List Reals ZArith NArith Lra Lia.
From Verif Require Import Model.Num Model.Outcome Model.Rng Model.Xml Model.Std Model.Point
  Model.Surface Model.Types Model.Bins Model.Field Model.Particle Model.Multigroup
  Model.Continuous Model.Material Model.World Model.Perturbation Model.Estimator Model.Transport
  Model.Driver Model.Schema Model.Program
  Spec.TextExt Spec.WorldSpec Spec.EstimatorSpec Spec.SolverSpec Spec.SchemaSpec Spec.ProgramSpec
  Proofs.RealLib Proofs.RngProofs Proofs.CrossingProofs Proofs.SampleProblem Proofs.SampleTally
  Proofs.SampleDocument Proofs.ResultProofs Proofs.SampleSolve Proofs.SchemaLib Proofs.SchemaProofs
  Proofs.ProgramProofs Proofs.SampleProgram.
Import ListNotations.
Local Open Scope string_scope.

(** C75: building the problem from a document that follows the schema never has undefined
    behaviour, if the tables in the data files have no empty axis. If moreover the document
    is usable, the problem is built or an exception is thrown that main's caller sees. The
    numbers of histories and of threads are positive. Without the first condition the
    behaviour can be undefined; without the second the program can abort inside a
    constructor that must not throw. *)
@@C75_defined
@@C75_reported_partial
@@C75_fields
@@C75_abort_refuted
@@C75_empty_axis_refuted

Example C75_case :
  let V := slab_env slab_ext slab_xml in
  library_returns (env_ext V) /\ no_empty_axis (env_ext V)
  /\ open_document V "dir/slab.xml" = Ok slab_fixed
  /\ usable (env_ext V) slab_fixed /\ agrees (env_lexical V) (env_ext V)
  /\ named_sensitivities slab_fixed
  /\ create_problem (G := half_rng) V slab_fixed = Ok (FixedProblem slab_driver)
  /\ open_document (slab_env slab_ext (Elem "minimc" [] [] "")) "dir/slab.xml" = Throw "not valid".
Proof.
  cbv zeta. split; [apply text_returns|]. split; [exact slab_axes|]. split; [exact slab_opens|].
  split; [exact slab_usable|]. split; [exact slab_agrees|]. split; [exact slab_named|].
  split; [apply slab_problem_created|]. reflexivity.
Qed.

(** C76: a run that succeeds leaves a file whose name is that of the document with the
    extension .out, and whose lines are the number of histories and then, for every
    estimator in the order of the document, its name, bins, means and deviations and those
    of its sensitivities. There are as many numbers in a row as there are bins. *)
@@C76_report
@@C76_layout
@@C76_name

Example C76_case :
  let V := slab_env slab_ext slab_xml in
  out_path "dir/slab.xml" = "dir/slab.out" /\ out_path "a.b/c.d.xml" = "a.b/c.d.out"
  /\ out_path "a.b/c" = "a.b/c.out" /\ out_path "a/.hidden" = "a/.hidden.out"
  /\ (forall x, one_line (env_sci V x)) /\ plain_names slab_fixed
  /\ exists r, solve (G := half_rng) (FixedProblem slab_driver) 2 turns = Ok r
     /\ report (env_sci V) 2 r
        = ["2"; "";
           "through"; "======="; "";
           "cosine"; "------"; "none"; ""; "energy"; "------"; "none"; "";
           "mean"; "----"; "1.0e+00, "; ""; "std dev"; "-------"; "1.0e+00, "; "";
           "through::more"; "============="; "";
           "mean"; "----"; "1.0e+00, "; ""; "std dev"; "-------"; "1.0e+00, "; ""; "";
           ""].
Proof.
  cbv zeta. do 4 (split; [reflexivity|]). split; [exact slab_sci_plain|]. split; [exact slab_plain|].
  destruct nudge_fin as (k & Ek & _). exists (both_done k).
  split; [apply (slab_result turns k Ek slab_fair_turns)|]. apply slab_report.
Qed.

(** C77: whatever the schedule of the workers, every successful run of the program makes
    the same changes to files: those of one thread that runs the histories one after
    another. At every crash point all files but the output file are as before, and the
    output file is as before, empty, or the start of the complete one. Nothing changes
    before the document has been read and the problem built. But the earlier results are
    lost when a run crashes, a file that cannot be written is not reported, and a document
    whose name ends in .out is overwritten. *)
@@C77_same
@@C77_serial
@@C77_only_output
@@C77_prefix
@@C77_first
@@C77_lost_refuted
@@C77_silent_refuted
@@C77_input_refuted

Example C77_case :
  let V := slab_env slab_ext slab_xml in
  agrees (env_lexical V) (env_ext V) /\ open_document V "dir/slab.xml" = Ok slab_fixed
  /\ named_sensitivities slab_fixed
  /\ stoul (env_ext V) (n_text (n_child (n_child slab_fixed "general") "threads")) = Ok 2%N
  /\ exists effects,
     main (G := half_rng) V ["dir/slab.xml"] 2 turns = (effects, Ok tt)
     /\ main (G := half_rng) V ["dir/slab.xml"] 2 greedy = (effects, Ok tt)
     /\ hd_error effects = Some (Truncated "dir/slab.out").
Proof.
  cbv zeta. split; [exact slab_agrees|]. split; [exact slab_opens|]. split; [exact slab_named|].
  split; [reflexivity|]. destruct nudge_fin as (k & Ek & _). eexists.
  split; [apply (slab_main "dir/slab.xml" true k turns Ek slab_fair_turns)|].
  split; [apply (slab_main "dir/slab.xml" true k greedy Ek slab_fair_greedy)|]. reflexivity.
Qed.
