(** The sample problem as a document that follows the schema. *)
From Coq Require Import Bool String List Reals ZArith NArith Lra Lia.
From Verif Require Import Model.Num Model.Outcome Model.Rng Model.Xml Model.Std Model.Point
  Model.Surface Model.Types Model.Bins Model.Field Model.Particle Model.Multigroup
  Model.Continuous Model.Material Model.World Model.Perturbation Model.Estimator Model.Transport
  Model.Driver Model.Schema Model.Program Spec.TextExt Spec.WorldSpec Spec.SchemaSpec
  Spec.RngSpec Proofs.OutcomeLib Proofs.RealLib Proofs.SampleProblem Proofs.SampleTally
  Proofs.SampleDocument Proofs.RngProofs Proofs.CrossingProofs Spec.SolverSpec Spec.ProgramSpec
  Proofs.SampleSolve Proofs.ProgramProofs.
Import ListNotations.
Local Open Scope string_scope.

Definition is_number (s : string) : bool :=
  match parse_dec s with Some _ => true | None => false end.
Definition is_nonnegative (s : string) : bool :=
  match parse_dec s with Some (m, _) => (0 <=? m)%Z | None => false end.
Definition is_positive (s : string) : bool :=
  match parse_dec s with Some (m, _) => (0 <? m)%Z | None => false end.
Definition is_count (s : string) : bool :=
  match parse_dec s with Some (m, e) => ((0 <? m) && (m <? 2 ^ 31) && (e =? 0))%Z | None => false end.
Definition slab_lexical : Lexical :=
  mkLexical is_number is_nonnegative is_positive is_count words.
Definition slab_sci (x : num XRa) : string :=
  match x with Fin _ => "1.0e+00" | PInf => "inf" | NInf => "-inf" | NaN => "nan" end.

(** A program that finds one document. *)
Definition env_at (path : string) (writable : bool) (X : Ext XRa) (e : xml) : Env XRa :=
  mkEnv slab_lexical X (fun p => if String.eqb p path then Some e else None)
    slab_sci (fun _ => writable).
Definition slab_env : Ext XRa -> xml -> Env XRa := env_at "dir/slab.xml" true.
Definition slab_xml_with (perturbations : xml) : xml :=
  Elem "minimc" []
    [slab_general; slab_surfaces; slab_nuclides; slab_materials; slab_cells;
     slab_warmth; perturbations; slab_estimators; group "problemtype" [slab_source "fixedsource"]] "".
Definition slab_xml : xml := slab_xml_with slab_perturbations.

Definition keigen_xml : xml :=
  Elem "minimc" []
    [slab_general; slab_surfaces; slab_nuclides; slab_materials; slab_cells;
     slab_warmth; slab_perturbations; slab_estimators;
     group "problemtype" [Elem "keigenvalue" [("active", "5"); ("inactive", "3")]
                            [slab_source "initialsource"] ""]] "".

Lemma text_returns files : library_returns (text_ext XRa files).
Proof.
  intros s. cbn. unfold reported. repeat split; destruct (parse_dec s) as [[m k]|], (parse_N s); cbn; auto.
Qed.
Lemma slab_opens : open_document (slab_env slab_ext slab_xml) "dir/slab.xml" = Ok slab_fixed.
Proof. reflexivity. Qed.
Lemma slab_problem_created (G : Rng XRa) :
  create_problem (G := G) (slab_env slab_ext slab_xml) slab_fixed = Ok (FixedProblem slab_driver).
Proof.
  unfold create_problem. change (env_ext (slab_env slab_ext slab_xml)) with slab_ext.
  rewrite slab_driver_created. reflexivity.
Qed.
Lemma slab_axes : no_empty_axis slab_ext.
Proof. intros p axes values H. discriminate. Qed.
Lemma slab_usable : usable slab_ext slab_fixed.
Proof.
  constructor.
  - intros n [<-|[]]. eexists "absorber", _, _.
    split; [eexists; split; [split; [left; reflexivity|discriminate]|reflexivity]|].
    split; [exists [], []; split; [reflexivity|]; split; [reflexivity|]; intros ? []|].
    split; [left; reflexivity|reflexivity].
  - intros e n [<-|[]] [<-|[]]. eexists. split; [left; reflexivity|reflexivity].
  - intros e [<-|[]]. split; intros H; now contradiction H.
  - intros n p [<-|[]] [<-|[]] H. now contradiction H.
Qed.
Lemma slab_agrees : agrees slab_lexical slab_ext.
Proof.
  intros s H. cbn in H. unfold is_count in H. split; intros z Hz; cbn in Hz; unfold parse_N in Hz;
    destruct (parse_dec s) as [[m k]|]; try discriminate;
    apply andb_prop in H as [H Hk]; apply andb_prop in H as [H1 H2]; apply Z.ltb_lt in H1, H2;
    apply Z.eqb_eq in Hk; subst k.
  - injection Hz as <-. lia.
  - destruct (Z.ltb_spec m 0); [lia|]. injection Hz as <-. lia.
Qed.
Lemma slab_named : named_sensitivities slab_fixed.
Proof. intros e n [<-|[]] [<-|[]]. discriminate. Qed.

(** A perturbation of a nuclide that no cell contains. *)
Definition ghost_xml : xml :=
  slab_xml_with (group "perturbations" [leaf "total" [("name", "more"); ("nuclide", "ghost")]]).

(** A thermal scattering library with an empty table of energies. *)
Definition hollow_ext : Ext XRa :=
  text_ext XRa [("xs", ([[Fin 1]], [Fin 1])); ("T", ([[Fin 1]; [Fin 1]], [Fin 1]));
                ("E", ([[]; [Fin 1]], [])); ("grid", ([[Fin 1]; [Fin 1]; [Fin 1]], [Fin 1]))]%R.
Definition xs_leaf (name : string) : xml := leaf name [("file", "xs"); ("temperature", "300")].
Definition hollow_partitions (name grid : string) : xml :=
  group name [leaf "partition" [("CDF", "T"); ("S", "xs"); (grid, "grid")]].
Definition hollow_nuclides : xml :=
  group "nuclides" [Elem "continuous" []
    [Elem "nuclide" [("name", "absorber"); ("awr", "1")]
       [Elem "neutron" []
          [xs_leaf "total";
           group "scatter"
             [xs_leaf "xs";
              Elem "tsl" [("majorant", "xs"); ("total_E", "E"); ("total_T", "T"); ("total_S", "xs");
                          ("beta_cutoff", "20"); ("alpha_cutoff", "20")]
                [hollow_partitions "beta_partitions" "E_T";
                 hollow_partitions "alpha_partitions" "beta_T"] ""]] ""] ""] ""].
Definition hollow_xml : xml :=
  Elem "minimc" []
    [slab_general; slab_surfaces; hollow_nuclides; slab_materials; slab_cells;
     slab_warmth; slab_perturbations; slab_estimators; group "problemtype" [slab_source "fixedsource"]] "".

Lemma C75_abort_refuted_proof :
  exists (V : Env XRa) (path : string) (root : node),
  library_returns (env_ext V) /\ no_empty_axis (env_ext V) /\ open_document V path = Ok root
  /\ create_problem (G := half_rng) V root = Terminate.
Proof.
  exists (slab_env slab_ext ghost_xml), "dir/slab.xml". eexists.
  split; [apply text_returns|]. split; [exact slab_axes|]. split; [reflexivity|]. reflexivity.
Qed.

Lemma C75_empty_axis_refuted_proof :
  exists (V : Env XRa) (path : string) (root : node),
  library_returns (env_ext V) /\ open_document V path = Ok root
  /\ create_problem (G := half_rng) V root = UB.
Proof.
  exists (slab_env hollow_ext hollow_xml), "dir/slab.xml". eexists.
  split; [apply text_returns|]. split; [reflexivity|]. reflexivity.
Qed.

(** ** Runs of the program on the sample *)
Lemma slab_main path writable k schedule : nudge (A := XRa) = Fin k -> fair slab_driver 5 schedule ->
  main (G := half_rng) (env_at path writable slab_ext slab_xml) [path] 2 schedule
  = (if writable
     then [Truncated (out_path path); Appended (out_path path) ("2" ++ newline);
           Appended (out_path path) (set_text slab_sci (both_done k))]
     else [], Ok tt).
Proof.
  intros Ek Fa. unfold main, open_document. cbn [env_document env_at]. rewrite String.eqb_refl.
  change (valid_document (env_lexical (env_at path writable slab_ext slab_xml)) slab_xml) with true.
  cbn [bind]. change (Some (mkH slab_xml [Elem "" [] [slab_xml] ""])) with slab_fixed.
  change (create_problem (env_at path writable slab_ext slab_xml) slab_fixed)
    with (create_problem (G := half_rng) (slab_env slab_ext slab_xml) slab_fixed).
  rewrite slab_problem_created. cbn [solve problem_driver].
  rewrite (slab_result schedule k Ek Fa). cbn [env_writable env_at]. now destruct writable.
Qed.
Lemma slab_sci_plain x : one_line (slab_sci x).
Proof. destruct x; reflexivity. Qed.
Lemma slab_plain : plain_names slab_fixed.
Proof.
  intros e [<-|[]]. split; [reflexivity|]. intros n [<-|[]]. reflexivity.
Qed.

Definition old_output (path : string) : files :=
  fun q => if String.eqb q path then Some "old results" else None.

Lemma C77_lost_refuted_proof :
  exists (V : Env XRa) (path : string) fuel schedule (before now : files) old,
  before (out_path path) = Some old /\ old <> ""
  /\ crashed before (fst (main (G := half_rng) V [path] fuel schedule)) now
  /\ now (out_path path) = Some "".
Proof.
  destruct nudge_fin as (k & Ek & _).
  exists (slab_env slab_ext slab_xml), "dir/slab.xml", 2%nat, turns.
  exists (old_output "dir/slab.out"). eexists. exists "old results".
  split; [reflexivity|]. split; [discriminate|]. unfold slab_env.
  rewrite (slab_main _ _ k turns Ek slab_fair_turns). cbn [fst].
  split; [eapply (crashed_between _ _ [Truncated _]); reflexivity|]. reflexivity.
Qed.

Lemma C77_silent_refuted_proof :
  exists (V : Env XRa) (path : string) fuel schedule (before : files),
  let (effects, ending) := main (G := half_rng) V [path] fuel schedule in
  ending = Ok tt /\ after before effects (out_path path) = None.
Proof.
  destruct nudge_fin as (k & Ek & _).
  exists (env_at "dir/slab.xml" false slab_ext slab_xml), "dir/slab.xml", 2%nat, turns, (fun _ => None).
  rewrite (slab_main _ _ k turns Ek slab_fair_turns). split; reflexivity.
Qed.

Lemma C77_input_refuted_proof :
  exists (V : Env XRa) (path : string) fuel schedule (before : files) input,
  before path = Some input
  /\ let (effects, ending) := main (G := half_rng) V [path] fuel schedule in
     ending = Ok tt /\ after before effects path <> Some input.
Proof.
  destruct nudge_fin as (k & Ek & _).
  exists (env_at "slab.out" true slab_ext slab_xml), "slab.out", 2%nat, turns,
    (fun _ => Some "<minimc/>"), "<minimc/>". split; [reflexivity|].
  rewrite (slab_main _ _ k turns Ek slab_fair_turns). split; [reflexivity|].
  rewrite after_three. intros H. discriminate.
Qed.

Lemma tally_lines name x y : (0 <= y - x * x / 2)%R ->
  score_lines slab_sci (tally name x y) (Fin 2)
  = ["mean"; "----"; "1.0e+00, "; ""; "std dev"; "-------"; "1.0e+00, "; ""].
Proof.
  intros H. unfold score_lines, row. cbn [tally sc_scores sc_squares map length seq nth].
  assert (E1 : ndiv XRa (Fin x) (Fin 2) = Fin (x / 2)).
  { cbn [ndiv XRa]. unfold xdiv. now rewrite Reqb_false by lra. }
  assert (E2 : ndiv XRa (nsqrt XRa (nsub XRa (Fin y) (ndiv XRa (nmul XRa (Fin x) (Fin x)) (Fin 2)))) (Fin 2)
    = Fin (sqrt (y - x * x / 2) / 2)).
  { cbn [ndiv XRa nmul nsub nsqrt xmul]. unfold xdiv at 2. rewrite Reqb_false by lra.
    unfold xsub, xopp. cbn [xadd xsqrt]. replace (y + - (x * x / 2))%R with (y - x * x / 2)%R by lra.
    rewrite Rltb_false by lra. unfold xdiv. now rewrite Reqb_false by lra. }
  cbv zeta. rewrite E1, E2. reflexivity.
Qed.
Lemma slab_report k : report slab_sci 2 (both_done k)
  = ["2"; "";
     "through"; "======="; "";
     "cosine"; "------"; "none"; ""; "energy"; "------"; "none"; "";
     "mean"; "----"; "1.0e+00, "; ""; "std dev"; "-------"; "1.0e+00, "; "";
     "through::more"; "============="; "";
     "mean"; "----"; "1.0e+00, "; ""; "std dev"; "-------"; "1.0e+00, "; ""; "";
     ""].
Proof.
  unfold report, both_done, tallies. cbn [ss_weight ss_estimators flat_map].
  unfold estimator_lines. cbn [es_scorable es_sens flat_map].
  unfold sensitivity_lines. cbn [sn_scorable].
  rewrite !tally_lines by nra. reflexivity.
Qed.
