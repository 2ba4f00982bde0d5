(** Several problems in one process: C87. *)
From Coq Require Import Bool String List Reals ZArith NArith Lra Lia.
From Verif Require Import Model.Num Model.Outcome Model.Rng Model.Xml Model.Std Model.Point
  Model.Surface Model.Types Model.Bins Model.Field Model.Particle Model.Multigroup
  Model.Continuous Model.Material Model.World Model.Perturbation Model.Estimator Model.Transport
  Model.Driver Model.Schema Model.Program Model.Process
  Spec.Vec Spec.CellSpec Spec.GeometrySpec Spec.RngSpec Spec.SumSpec Spec.MultigroupSpec
  Spec.MaterialSpec Spec.TextExt Spec.TransportSpec Spec.EstimatorSpec Spec.SolverSpec
  Spec.FrequencySpec Spec.BeamSpec Spec.ProcessSpec
  Proofs.OutcomeLib Proofs.RealLib Proofs.GeometryProofs Proofs.CrossingProofs Proofs.RngProofs
  Proofs.SampleProblem Proofs.SampleTally Proofs.SampleDocument Proofs.SampleProgram
  Proofs.SolverProofs Proofs.FrequencyProofs Proofs.BeamProofs Proofs.SampleBeam Proofs.ResultProofs
  Proofs.ProgramProofs.
Import ListNotations.
Local Open Scope string_scope.

Lemma update_nth_length {X} (x : X) : forall l i, length (update_nth i x l) = length l.
Proof. induction l as [|y l IH]; intros [|i]; cbn; auto. Qed.
Lemma update_nth_same {X} (x : X) : forall l i, (i < length l)%nat ->
  nth_error (update_nth i x l) i = Some x.
Proof. induction l as [|y l IH]; intros [|i] H; cbn in *; try lia; auto. apply IH. lia. Qed.
Lemma update_nth_other {X} (x : X) : forall l i j, i <> j ->
  nth_error (update_nth i x l) j = nth_error l j.
Proof. induction l as [|y l IH]; intros [|i] [|j] H; cbn; auto; try lia. Qed.

Section Process.
  Context {A : Arith} {G : Rng A}.
  Variable V : Env A.
  Notation process := (@process A G).
  Notation after := (process_after (G := G) V).

  Lemma after_app calls calls' : after (calls ++ calls')
    = fold_left (fun ps c => fst (process_call V ps c)) calls' (after calls).
  Proof. apply fold_left_app. Qed.
  Lemma after_last calls c : after (calls ++ [c]) = fst (process_call V (after calls) c).
  Proof. now rewrite after_app. Qed.

  (** The method left behind by one call. *)
  Lemma call_method (ps : process) c : ps_method (fst (process_call V ps c))
    = match c with
      | CreateProblem path => match file_method V path with Some t => Some t | None => ps_method ps end
      | SolveProblem _ _ _ => ps_method ps
      end.
  Proof.
    destruct c as [path|i fuel schedule]; cbn [process_call].
    - unfold create_call. destruct (bind _ _); reflexivity.
    - unfold solve_call. destruct (nth_error _ _) as [[[dr|dr ke] n]|]; try reflexivity.
      destruct (ps_method ps) eqn:E; cbn; auto.
  Qed.
  (** No call changes a problem, except for the number of histories its own Solve counts. *)
  Lemma call_problem (ps : process) c i pb n :
    nth_error (ps_problems ps) i = Some (pb, n) ->
    exists n', nth_error (ps_problems (fst (process_call V ps c))) i = Some (pb, n')
      /\ ((forall fuel schedule, c <> SolveProblem i fuel schedule) -> n' = n).
  Proof.
    intros H. assert (Hi : (i < length (ps_problems ps))%nat) by (apply nth_error_Some; congruence).
    destruct c as [path|j fuel schedule]; cbn [process_call].
    - exists n. split; auto. unfold create_call.
      destruct (bind _ _); cbn; auto. now rewrite nth_error_app1.
    - unfold solve_call. destruct (nth_error _ j) as [[[dr|dr ke] m]|] eqn:Ej; try (exists n; now split).
      destruct (ps_method ps); [|exists n; now split]. cbn [fst ps_problems].
      destruct (Nat.eq_dec j i) as [->|Ne].
      + rewrite H in Ej. injection Ej as -> ->. eexists. rewrite update_nth_same by auto.
        split; [reflexivity|]. intros K. exfalso. now apply (K fuel schedule).
      + exists n. rewrite update_nth_other by auto. now split.
  Qed.
  Lemma calls_problem calls' : forall (ps : process) i pb n,
    nth_error (ps_problems ps) i = Some (pb, n) ->
    exists n', nth_error (ps_problems (fold_left (fun ps c => fst (process_call V ps c)) calls' ps)) i
               = Some (pb, n')
      /\ (unsolved i calls' -> n' = n).
  Proof.
    induction calls' as [|c calls' IH]; intros ps i pb n H; [exists n; now split|].
    destruct (call_problem ps c i pb n H) as (n1 & H1 & K1). cbn [fold_left].
    destruct (IH _ _ _ _ H1) as (n2 & H2 & K2). exists n2. split; [exact H2|].
    intros U. rewrite K2 by (intros f sc Hin; apply (U f sc); now right). apply K1.
    intros fuel schedule ->. apply (U fuel schedule). now left.
  Qed.
  Lemma created_inv calls path i :
    answer_after (G := G) V calls (CreateProblem path) = Created (Ok i) ->
    exists root pb, open_document V path = Ok root /\ create_problem (G := G) V root = Ok pb
      /\ i = length (ps_problems (after calls))
      /\ nth_error (ps_problems (after (calls ++ [CreateProblem path]))) i = Some (pb, 0%N).
  Proof.
    unfold answer_after. rewrite after_last. cbn [process_call]. unfold create_call.
    destruct (bind _ _) as [pb| | | |] eqn:E; cbn [bind snd]; try discriminate. intros [= <-].
    apply bind_ok in E as (root & E1 & E2). exists root, pb. do 3 (split; auto).
    cbn [fst ps_problems]. rewrite nth_error_app2 by auto. now rewrite Nat.sub_diag.
  Qed.
  (** The method of the document is the one its driver was built with. *)
  Lemma driver_method_create (X : Ext A) root source_node (dr : @driver A) : driver_create X root source_node = Ok dr ->
    driver_method X root = Ok (dr_tracking dr).
  Proof.
    unfold driver_create, driver_method. intros E.
    apply bind_ok in E as (w & E1 & E). rewrite E1. cbn [bind].
    apply bind_ok in E as (pts & E2 & E). rewrite E2. cbn [bind].
    apply bind_ok in E as (b & E3 & E). rewrite E3. cbn [bind].
    apply bind_ok in E as (sd & E4 & E). rewrite E4. cbn [bind].
    apply bind_ok in E as (init & E5 & E). rewrite E5. cbn [bind].
    apply bind_ok in E as (th & E6 & E). rewrite E6. cbn [bind].
    apply bind_ok in E as (t & E7 & E). rewrite E7.
    apply bind_ok in E as (so & _ & E). now injection E as <-.
  Qed.
  Lemma file_method_create path root pb : open_document V path = Ok root ->
    create_problem (G := G) V root = Ok pb ->
    file_method V path = Some (dr_tracking (problem_driver pb)).
  Proof.
    intros E1 E2. unfold file_method. rewrite E1. cbn [bind]. unfold create_problem in E2.
    destruct (String.eqb _ _).
    - apply bind_ok in E2 as (dr & E & E2). injection E2 as <-.
      apply driver_method_create in E. now rewrite E.
    - destruct (String.eqb _ _); [|discriminate]. apply bind_ok in E2 as (dr & E & E2).
      apply bind_ok in E2 as (ke & _ & E2). injection E2 as <-.
      apply driver_method_create in E. now rewrite E.
  Qed.

  Lemma calls_method t calls' : forall ps : process, ps_method ps = Some t ->
    (forall path, In (CreateProblem path) calls' ->
       file_method V path = None \/ file_method V path = Some t) ->
    ps_method (fold_left (fun ps c => fst (process_call V ps c)) calls' ps) = Some t.
  Proof.
    induction calls' as [|c calls' IH]; intros ps E H; [exact E|]. cbn [fold_left].
    apply IH; [|intros; apply H; now right]. rewrite call_method. destruct c as [path|]; auto.
    destruct (H path (or_introl eq_refl)) as [->| ->]; auto.
  Qed.
  Lemma solve_answer (ps : process) i pb t fuel schedule :
    nth_error (ps_problems ps) i = Some (pb, 0%N) -> ps_method ps = Some t ->
    snd (process_call V ps (SolveProblem i fuel schedule))
    = Solved (solve (tracked_by t pb) fuel schedule).
  Proof.
    intros H M. cbn [process_call]. unfold solve_call. rewrite H.
    destruct pb as [dr|dr ke]; [rewrite M|]; reflexivity.
  Qed.
End Process.

Lemma tracked_own {A : Arith} {G : Rng A} (pb : @problem A G) : tracked_by (dr_tracking (problem_driver pb)) pb = pb.
Proof. destruct pb as [[]|]; reflexivity. Qed.

Lemma C87_method_proof :
  forall (A : Arith) (G : Rng A) (V : Env A) before path between i fuel schedule,
  answer_after (G := G) V before (CreateProblem path) = Created (Ok i) -> unsolved i between ->
  forall others path' later t, (CreateProblem path :: between = others ++ CreateProblem path' :: later)%list ->
  file_method V path' = Some t ->
  (forall path'', In (CreateProblem path'') later -> file_method V path'' = None) ->
  exists root pb, open_document V path = Ok root /\ create_problem (G := G) V root = Ok pb
    /\ answer_after (G := G) V (before ++ CreateProblem path :: between) (SolveProblem i fuel schedule)
       = Solved (solve (tracked_by t pb) fuel schedule).
Proof.
  intros A G V before path between i fuel schedule C U others path' later t E M L.
  destruct (created_inv V before path i C) as (root & pb & E1 & E2 & _ & N).
  exists root, pb. split; [exact E1|]. split; [exact E2|]. unfold answer_after.
  apply solve_answer.
  - change (before ++ CreateProblem path :: between)%list
      with (before ++ [CreateProblem path] ++ between)%list. rewrite app_assoc, after_app.
    destruct (calls_problem V between _ _ _ _ N) as (n' & H & Hn). rewrite (Hn U) in H. exact H.
  - rewrite E, app_assoc, after_app. cbn [fold_left]. apply calls_method.
    + rewrite call_method, M. reflexivity.
    + intros p Hp. left. now apply L.
Qed.
Lemma C87_independent_partial_proof :
  forall (A : Arith) (G : Rng A) (V : Env A) before path between i fuel schedule,
  answer_after (G := G) V before (CreateProblem path) = Created (Ok i) -> unsolved i between ->
  (forall path', In (CreateProblem path') between ->
     file_method V path' = None \/ file_method V path' = file_method V path) ->
  exists root pb, open_document V path = Ok root /\ create_problem (G := G) V root = Ok pb
    /\ answer_after (G := G) V (before ++ CreateProblem path :: between) (SolveProblem i fuel schedule)
       = Solved (solve pb fuel schedule).
Proof.
  intros A G V before path between i fuel schedule C U M.
  destruct (created_inv V before path i C) as (root & pb & E1 & E2 & _ & N).
  exists root, pb. split; [exact E1|]. split; [exact E2|].
  pose proof (file_method_create V path root pb E1 E2) as Mt.
  rewrite <- (tracked_own pb) at 1. unfold answer_after. apply solve_answer.
  - change (before ++ CreateProblem path :: between)%list
      with (before ++ [CreateProblem path] ++ between)%list. rewrite app_assoc, after_app.
    destruct (calls_problem V between _ _ _ _ N) as (n' & H & Hn). rewrite (Hn U) in H. exact H.
  - rewrite after_app. cbn [fold_left]. apply calls_method.
    + rewrite call_method, Mt. reflexivity.
    + intros p Hp. destruct (M p Hp) as [->| ->]; auto.
Qed.

(** ** Two documents that differ in the tracking method *)
Local Open Scope R_scope.
Definition plain_estimators : xml :=
  group "estimators" [leaf "current" [("name", "through"); ("surface", "edge")]].
Definition tracked_xml (extra : list xml) : xml :=
  Elem "minimc" []
    [group "general" ([text_node "histories" "2"; text_node "threads" "2";
                       text_node "particles" "neutron"; text_node "chunksize" "1"] ++ extra);
     slab_surfaces; slab_nuclides; slab_materials; slab_cells;
     slab_warmth; plain_estimators; group "problemtype" [slab_source "fixedsource"]] "".
Definition two_files : Env XRa :=
  mkEnv slab_lexical slab_ext
    (fun p => if String.eqb p "a.xml" then Some (tracked_xml [])
              else if String.eqb p "b.xml" then Some (tracked_xml [text_node "tracking" "cell delta"])
              else None) slab_sci (fun _ => true).
Definition near_driver (t : tracking) : @driver XRa :=
  mkDriver (A := XRa) slab_world [] 2 1
    (mkEstSet (A := XRa) [mkEst (tally "through" 0 0) 0 []] (Fin 2)) 2 t near_edge.
(** A generator whose flights end exactly on the surface. *)
Definition exact_rng : Rng XRa :=
  mkRng XRa Datatypes.unit (fun _ => tt) (fun s => (1%Z, s)) (fun s => (Fin (1 - exp (- (1 / 2))), s)).
Lemma exact_valid : valid_rng exact_rng.
Proof.
  intros s. exists (1 - exp (- (1 / 2))). split; [reflexivity|].
  pose proof (exp_pos (- (1 / 2))). pose proof (exp_increasing (- (1 / 2)) 0 ltac:(lra)) as H1.
  rewrite exp_0 in H1. lra.
Qed.
Definition file_root (extra : list xml) : node :=
  Some (mkH (tracked_xml extra) [Elem "" [] [tracked_xml extra] ""]).
Lemma file_driver extra t : tracking_create (file_root extra) slab_world = Ok t ->
  (extra = [] \/ extra = [text_node "tracking" "cell delta"]) ->
  create_problem (G := exact_rng) two_files (file_root extra) = Ok (FixedProblem (near_driver t)).
Proof.
  intros Et Ex. unfold create_problem. change (env_ext two_files) with slab_ext.
  assert (Ew : world_create slab_ext (file_root extra) = Ok read_world)
    by (destruct Ex as [->| ->]; reflexivity).
  assert (Es : source_create slab_ext
     (n_child (n_child (file_root extra) "problemtype") "fixedsource") = Ok read_source)
    by (destruct Ex as [->| ->]; reflexivity).
  assert (Ed : fixed_source_create slab_ext (file_root extra) = Ok (near_driver t)).
  { unfold fixed_source_create, driver_create. rewrite Ew. cbn [bind].
    rewrite read_slab_world, Es, read_near_edge, Et. destruct Ex as [->| ->]; reflexivity. }
  replace (n_name (n_first_child (n_child (file_root extra) "problemtype"))) with "fixedsource"
    by (destruct Ex as [->| ->]; reflexivity).
  cbn [String.eqb]. rewrite Ed. reflexivity.
Qed.
Definition even : list nat := [0; 0; 0; 0; 0; 1; 1; 1; 1; 1]%nat.
Lemma near_result t : exists r,
  solve (FixedProblem (near_driver t) : @problem XRa exact_rng) 2 even = Ok r
  /\ exists e, ss_estimators r = [e] /\ nth_error (sc_means (es_scorable e) (ss_weight r)) 0
     = Some (Fin (match t with SurfaceTracking => 1 | CellDeltaTracking => 0 end)).
Proof.
  set (dr := near_driver t). cbn [solve].
  assert (B : beam slab_ext [1]%N dr (V3 (19 / 2) 0 0) (V3 1 0 0) 1 edge (10 - 19 / 2) 1).
  { apply slab_beam; [reflexivity|lra|reflexivity]. }
  replace (10 - 19 / 2) with (1 / 2) in B by lra.
  assert (Bl : blank_set (dr_init dr)).
  { intros e [<-|[]]; split; [exists 1%nat; split; reflexivity|intros sn []]. }
  assert (Un : unique_names (dr_init dr)).
  { split; [repeat constructor; intros []|intros e [<-|[]]; constructor]. }
  assert (few : (dr_batchsize dr + dr_threads dr <= 2 ^ 64)%N) by (vm_compute; discriminate).
  assert (Se : sees_beam (V3 1 0 0) 1 edge (mkEst (tally "through" 0 0) 0 []) 0) by (split; reflexivity).
  assert (Su : List.Forall succeeded
    (sv_workers (run_schedule (G := exact_rng) dr 2 (solver_start dr 0) even))).
  { apply (C86_completes_proof exact_rng slab_ext [1]%N dr _ _ _ _ _ _ 2 even exact_valid B few Bl Un).
    - constructor.
    - constructor; [|constructor]. split; [|intros sn []]. intros _. exists 0%nat.
      split; [exact Se|]. cbn. lia.
    - lia.
    - intros i Hi. change (N.to_nat (dr_threads dr)) with 2%nat in Hi.
      destruct i as [|[|i]]; [| |lia]; cbn; lia. }
  destruct (C86_absorber_proof exact_rng slab_ext [1]%N dr _ _ _ _ _ _ 2 even exact_valid B few
    ltac:(reflexivity) ltac:(reflexivity) Bl Un eq_refl Su) as (r & Er & F).
  exists r. split; [exact Er|]. cbn [dr_init dr near_driver ss_estimators] in F.
  inversion F as [|e e' l l' H F' E1 E2]; subst. inversion F'; subst. exists e'. split; [reflexivity|].
  destruct (H 0%nat ltac:(cbn; lia)) as (n & C & M & _). rewrite M. do 2 f_equal.
  assert (n = match t with SurfaceTracking => 2 | CellDeltaTracking => 0 end)%N as ->.
  { apply (counts_unique _ _ _ C). change (dr_tracking dr) with t.
    change (dr_batchsize dr) with 2%N. destruct t; cbn [transmitted].
    - exists [0; 1]%N. split; [repeat constructor; cbn; intuition discriminate|].
      split; [|reflexivity]. intros j. split.
      + intros Hj. split; [cbn in Hj; lia|]. split; [exact Se|].
        exists (1 - exp (- (1 / 2))). split; [reflexivity|]. rewrite Rmult_1_l. lra.
      + intros (Hj & _). cbn. lia.
    - exists []. split; [constructor|]. split; [|reflexivity]. intros j. split; [intros []|].
      intros (_ & _ & u & [= <-] & Hu). rewrite Rmult_1_l in Hu. lra. }
  change (dr_batchsize dr) with 2%N. destruct t; cbn; lra.
Qed.

Lemma file_methods : file_method two_files "a.xml" = Some SurfaceTracking
  /\ file_method two_files "b.xml" = Some CellDeltaTracking.
Proof.
  split.
  - apply (file_method_create (G := exact_rng) two_files "a.xml" (file_root [])
      (FixedProblem (near_driver SurfaceTracking))); [reflexivity|].
    apply file_driver; auto.
  - apply (file_method_create (G := exact_rng) two_files "b.xml"
      (file_root [text_node "tracking" "cell delta"])
      (FixedProblem (near_driver CellDeltaTracking))); [reflexivity|].
    apply file_driver; auto.
Qed.
Lemma file_created before : exists i,
  answer_after (G := exact_rng) two_files before (CreateProblem "a.xml") = Created (Ok i)
  /\ i = length (ps_problems (process_after (G := exact_rng) two_files before)).
Proof.
  eexists. split; [|reflexivity]. unfold answer_after. cbn [process_call]. unfold create_call.
  change (open_document two_files "a.xml") with (Ok (file_root [])). cbn [bind].
  rewrite (file_driver [] SurfaceTracking) by auto. reflexivity.
Qed.

Lemma problems_created : length (ps_problems (process_after (G := exact_rng) two_files
  [CreateProblem "b.xml"; SolveProblem 0 2 even])) = 1%nat.
Proof.
  unfold process_after. cbn [fold_left].
  set (ps := fst (process_call two_files (process_start (G := exact_rng)) (CreateProblem "b.xml"))).
  assert (E : ps_problems ps = [(FixedProblem (near_driver CellDeltaTracking), 0%N)]).
  { subst ps. cbn [process_call]. unfold create_call.
    change (open_document two_files "b.xml")
      with (Ok (file_root [text_node "tracking" "cell delta"])). cbn [bind].
    rewrite (file_driver [text_node "tracking" "cell delta"] CellDeltaTracking) by auto. reflexivity. }
  cbn [process_call]. unfold solve_call. rewrite E. cbn [nth_error].
  destruct (ps_method ps); cbn [fst ps_problems]; rewrite ?E, ?update_nth_length; reflexivity.
Qed.

Lemma C87_independent_refuted_proof :
  exists (G : Rng XRa) (V : Env XRa) path path' fuel schedule r r',
  answer_after (G := G) V [CreateProblem path] (SolveProblem 0 fuel schedule) = Solved (Ok r)
  /\ answer_after (G := G) V [CreateProblem path; CreateProblem path'] (SolveProblem 0 fuel schedule)
     = Solved (Ok r')
  /\ exists e e', ss_estimators r = [e] /\ ss_estimators r' = [e']
       /\ nth_error (sc_means (es_scorable e) (ss_weight r)) 0 = Some (Fin 1)
       /\ nth_error (sc_means (es_scorable e') (ss_weight r')) 0 = Some (Fin 0).
Proof.
  destruct file_methods as [Ma Mb]. destruct (file_created []) as (i & Ci & Ei). cbn in Ei. subst i.
  destruct (near_result SurfaceTracking) as (r & Er & e & He & Hm).
  destruct (near_result CellDeltaTracking) as (r' & Er' & e' & He' & Hm').
  assert (Pa : forall root pb, open_document two_files "a.xml" = Ok root ->
     create_problem (G := exact_rng) two_files root = Ok pb ->
     pb = FixedProblem (near_driver SurfaceTracking)).
  { intros root pb E1 E2. change (open_document two_files "a.xml") with (Ok (file_root [])) in E1.
    injection E1 as <-. rewrite (file_driver [] SurfaceTracking) in E2 by auto. now injection E2. }
  exists exact_rng, two_files, "a.xml", "b.xml", 2%nat, even, r, r'. split; [|split].
  - destruct (C87_method_proof XRa exact_rng two_files [] "a.xml" [] 0 2 even Ci
      ltac:(intros ? ? []) [] "a.xml" [] SurfaceTracking eq_refl Ma ltac:(intros ? []))
      as (root & pb & E1 & E2 & E3).
    rewrite (Pa _ _ E1 E2) in E3. cbn [app] in E3. rewrite E3. cbn [tracked_by]. f_equal. exact Er.
  - destruct (C87_method_proof XRa exact_rng two_files [] "a.xml" [CreateProblem "b.xml"] 0 2 even Ci
      ltac:(intros ? ? [H|[]]; discriminate) [CreateProblem "a.xml"] "b.xml" [] CellDeltaTracking
      eq_refl Mb ltac:(intros ? [])) as (root & pb & E1 & E2 & E3).
    rewrite (Pa _ _ E1 E2) in E3. cbn [app] in E3. rewrite E3. cbn [tracked_by]. f_equal. exact Er'.
  - exists e, e'. auto.
Qed.

(** Solving the same problem again. *)
Lemma start_honest {A : Arith} (dr : @driver A) c : List.Forall honest (sv_workers (solver_start dr c)).
Proof. cbn. generalize (N.to_nat (dr_threads dr)). induction n; constructor; cbn; auto. Qed.
Lemma C62_interface_proof :
  forall (G : Rng XRa) (V : Env XRa) before path i root dr fuel schedule r schedule' r',
  let calls := (before ++ [CreateProblem path])%list in
  answer_after (G := G) V before (CreateProblem path) = Created (Ok i) ->
  open_document V path = Ok root -> create_problem (G := G) V root = Ok (FixedProblem dr) ->
  (dr_batchsize dr + 2 * dr_threads dr < 2 ^ 64)%N -> (0 < dr_threads dr)%N ->
  blank_set (dr_init dr) -> unique_names (dr_init dr) ->
  answer_after (G := G) V calls (SolveProblem i fuel schedule) = Solved (Ok r) ->
  answer_after (G := G) V (calls ++ [SolveProblem i fuel schedule]) (SolveProblem i fuel schedule')
  = Solved (Ok r') ->
  r' = dr_init dr.
Proof.
  intros G V before path i root dr fuel schedule r schedule' r' calls C E1 E2 few T Bl Un.
  destruct (created_inv V before path i C) as (root0 & pb & F1 & F2 & _ & N). fold calls in N.
  assert (root0 = root) by congruence. subst root0. assert (pb = FixedProblem dr) by congruence. subst pb.
  unfold answer_after. rewrite after_last. cbn [process_call].
  set (ps := process_after V calls) in *. unfold solve_call at 1. rewrite N.
  destruct (ps_method ps) as [t|] eqn:M; [|discriminate]. cbn [snd]. intros H1.
  assert (E : fst (solve_call ps i fuel schedule)
    = mkProcess (ps_method ps) (update_nth i (FixedProblem dr, sv_counter (run_schedule (G := G) (with_method t dr) fuel
        (solver_start (with_method t dr) 0) schedule)) (ps_problems ps))).
  { unfold solve_call. rewrite N, M. reflexivity. }
  rewrite E. unfold solve_call. cbn [ps_problems ps_method].
  rewrite update_nth_same by (apply nth_error_Some; congruence). rewrite M. cbn [snd]. intros H2.
  injection H1 as H1. injection H2 as H2.
  pose proof (C62_empty_proof G (with_method t dr) fuel schedule schedule' few T Bl Un) as K. cbv zeta in K.
  specialize (K (result_succeeded (with_method t dr) _ (honest_run G _ _ _ _ (start_honest _ _)) _ _ H1)
                (result_succeeded (with_method t dr) _ (honest_run G _ _ _ _ (start_honest _ _)) _ _ H2)).
  change (dr_init (with_method t dr)) with (dr_init dr) in K. congruence.
Qed.

Lemma solved_twice {A : Arith} {G : Rng A} (V : Env A) calls (dr : @driver A) t fuel schedule r r' :
  process_after (G := G) V calls = mkProcess (Some t) [(FixedProblem dr, 0%N)] -> with_method t dr = dr ->
  solver_result dr (run_schedule (G := G) dr fuel (solver_start dr 0) schedule) = Ok r ->
  solver_result dr (run_schedule (G := G) dr fuel (solver_start dr
    (sv_counter (run_schedule (G := G) dr fuel (solver_start dr 0) schedule))) schedule) = Ok r' ->
  answer_after (G := G) V calls (SolveProblem 0 fuel schedule) = Solved (Ok r)
  /\ answer_after (G := G) V (calls ++ [SolveProblem 0 fuel schedule]) (SolveProblem 0 fuel schedule) = Solved (Ok r').
Proof.
  intros P W E1 E2. unfold answer_after. rewrite after_last, P. cbn [process_call]. unfold solve_call.
  cbn [ps_problems nth_error ps_method fst snd update_nth]. rewrite W, E1, E2. auto.
Qed.
Lemma second_done {A : Arith} {G : Rng A} (dr : @driver A) fuel :
  dr_batchsize dr = 2%N -> dr_threads dr = 2%N ->
  let first := run_schedule (G := G) dr fuel (solver_start dr 0) even in
  List.Forall succeeded (sv_workers first) ->
  List.Forall succeeded (sv_workers (run_schedule (G := G) dr fuel (solver_start dr (sv_counter first)) even)).
Proof.
  intros B T first Su. assert (C : sv_counter first = 4%N).
  { destruct (after (G := G) dr fuel (fun _ _ => True) I (fun _ _ _ _ _ _ => I)
      ltac:(rewrite B, T; lia) even) as (n & ls & V & E). fold first in V.
    pose proof (iv_length _ _ _ _ _ _ V) as L. pose proof (done_all _ Su) as D.
    rewrite T in L. change (N.to_nat 2) with 2%nat in L. rewrite L in D.
    assert (n = dr_batchsize dr) as En by (apply (iv_done _ _ _ _ _ _ V); lia). rewrite B in En. subst n.
    destruct (iv_counter _ _ _ _ _ _ V) as [C|C]; rewrite D in C; [exact C|]. discriminate. }
  rewrite C. clear C Su first. destruct dr as [w p b sd ini th tr so]. cbn in B, T. subst b th.
  cbn. repeat constructor.
Qed.
Lemma created_alone {A : Arith} {G : Rng A} (V : Env A) path root pb t :
  open_document V path = Ok root -> create_problem (G := G) V root = Ok pb -> file_method V path = Some t ->
  process_after (G := G) V [CreateProblem path] = mkProcess (Some t) [(pb, 0%N)].
Proof.
  intros E1 E2 E3. unfold process_after. cbn [fold_left process_call]. unfold create_call. rewrite E3, E1. cbn [bind].
  now rewrite E2.
Qed.
Lemma near_blank t : blank_set (dr_init (near_driver t)) /\ unique_names (dr_init (near_driver t)).
Proof.
  split.
  - intros e [<-|[]]; split; [exists 1%nat; split; reflexivity|intros sn []].
  - split; [repeat constructor; intros []|intros e [<-|[]]; constructor].
Qed.
Lemma near_again t r : solver_result (near_driver t) (run_schedule (G := exact_rng) (near_driver t) 2
    (solver_start (near_driver t) 0) even) = Ok r ->
  solver_result (near_driver t) (run_schedule (G := exact_rng) (near_driver t) 2 (solver_start (near_driver t)
    (sv_counter (run_schedule (G := exact_rng) (near_driver t) 2 (solver_start (near_driver t) 0) even))) even)
  = Ok (dr_init (near_driver t)).
Proof.
  intros Er. pose proof (solver_succeeded exact_rng _ _ _ _ Er) as Su. destruct (near_blank t) as [Bl Un].
  refine (C62_empty_proof exact_rng (near_driver t) 2 even even _ _ Bl Un Su _); [reflexivity|reflexivity|].
  exact (second_done (near_driver t) 2 eq_refl eq_refl Su).
Qed.
Lemma a_opens : open_document two_files "a.xml" = Ok (file_root []).
Proof. reflexivity. Qed.
Lemma a_driver : create_problem (G := exact_rng) two_files (file_root []) = Ok (FixedProblem (near_driver SurfaceTracking)).
Proof. apply file_driver; auto. Qed.
Lemma near_method t : with_method t (near_driver t) = near_driver t.
Proof. reflexivity. Qed.
Lemma solve_fixed {A : Arith} {G : Rng A} (dr : @driver A) fuel schedule :
  solve (FixedProblem dr : @problem A G) fuel schedule
  = solver_result dr (run_schedule (G := G) dr fuel (solver_start dr 0) schedule).
Proof. reflexivity. Qed.
Lemma C62_interface_example :
  let calls := [CreateProblem "a.xml"] in
  exists r, answer_after (G := exact_rng) two_files calls (SolveProblem 0 2 even) = Solved (Ok r)
  /\ answer_after (G := exact_rng) two_files (calls ++ [SolveProblem 0 2 even]) (SolveProblem 0 2 even)
     = Solved (Ok (dr_init (near_driver SurfaceTracking)))
  /\ (exists e, ss_estimators r = [e] /\ nth_error (sc_means (es_scorable e) (ss_weight r)) 0 = Some (Fin 1)).
Proof.
  cbv zeta. destruct (near_result SurfaceTracking) as (r & Er & He). exists r. rewrite solve_fixed in Er.
  pose proof (created_alone (G := exact_rng) two_files "a.xml" (file_root []) (FixedProblem (near_driver SurfaceTracking)) SurfaceTracking
    a_opens a_driver (proj1 file_methods)) as P.
  pose proof (solved_twice two_files _ _ SurfaceTracking 2 even r _ P (near_method _) Er (near_again _ _ Er)) as [H1 H2].
  split; [exact H1|]. split; [exact H2|exact He].
Qed.
