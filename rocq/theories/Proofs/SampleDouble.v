(** The sample problem in binary64, run from its document to the result, with the
    repository's random number generator. *)
From Coq Require Import Bool String List ZArith NArith Lia SpecFloat.
From Verif Require Import Model.Num Model.Outcome Model.Rng Model.Xml Model.Std Model.Point
  Model.Surface Model.Types Model.Bins Model.Field Model.Particle Model.Multigroup
  Model.Continuous Model.Material Model.World Model.Perturbation Model.Estimator Model.Transport
  Model.Driver Spec.TextExt Spec.EstimatorSpec Spec.SolverSpec Spec.CountSpec
  Spec.HistorySpec Proofs.OutcomeLib Proofs.HistoryProofs Proofs.SampleDocument Proofs.ResultProofs
  Proofs.CountProofs.
Import ListNotations.
Local Open Scope string_scope.

(** Elementary functions good enough for the sample: the logarithm by the series of
    the inverse hyperbolic tangent, cosine and sine by their Taylor series. The
    theorems hold for any. *)
Section Series.
  Notation add := (SFadd prec64 emax64).
  Notation mul := (SFmul prec64 emax64).
  Notation div := (SFdiv prec64 emax64).
  Notation sub := (SFsub prec64 emax64).
  Fixpoint atanh_series (n : nat) (k : Z) (t2 pow acc : spec_float) : spec_float :=
    match n with
    | O => acc
    | S n' => atanh_series n' (k + 2) t2 (mul pow t2) (add acc (div pow (f64_ofZ k)))
    end.
  (** log (m 2^e) = e log 2 + 2 atanh ((m - 1) / (m + 1)) with m in [1, 2) *)
  Definition log_one (m : spec_float) : spec_float :=
    let t := div (sub m (f64_ofZ 1)) (add m (f64_ofZ 1)) in
    mul (f64_ofZ 2) (atanh_series 40 1 (mul t t) t (f64_ofZ 0)).
  Definition sample_log (x : spec_float) : spec_float :=
    match x with
    | S754_finite false m e =>
        let k := (e + 52)%Z in
        add (mul (f64_ofZ k) (log_one (f64_ofZ 2))) (log_one (S754_finite false m (-52)))
    | S754_zero _ => S754_infinity true
    | S754_infinity false => x
    | _ => S754_nan
    end.
  Fixpoint taylor (n : nat) (k : Z) (x2 term acc : spec_float) : spec_float :=
    match n with
    | O => acc
    | S n' =>
        let term' := SFopp (div (mul term x2) (f64_ofZ (k * (k + 1)))) in
        taylor n' (k + 2) x2 term' (add acc term')
    end.
  Definition sample_cos (x : spec_float) : spec_float :=
    taylor 25 1 (mul x x) (f64_ofZ 1) (f64_ofZ 1).
  Definition sample_sin (x : spec_float) : spec_float := taylor 25 2 (mul x x) x x.
End Series.
Definition sample_libm : Libm :=
  mkLibm sample_cos sample_sin sample_log (fun x => x) (fun x => x) (fun x _ => x).
Notation D64 := (F64 sample_libm).

Definition double_general : xml :=
  group "general" [text_node "histories" "24"; text_node "threads" "2";
                   text_node "particles" "neutron"; text_node "chunksize" "1"].
Definition double_source : xml :=
  group "fixedsource"
    [group "position" [point_leaf "constant" "9.9"];
     group "direction" [leaf "isotropic" []];
     group "energy" [leaf "constant" [("energy", "1")]];
     group "particletype" [leaf "constant" [("type", "neutron")]]].
Definition double_problem : node :=
  document [double_general; slab_surfaces; slab_nuclides; slab_materials; slab_cells;
    slab_warmth; slab_perturbations; slab_estimators; group "problemtype" [double_source]].
Definition double_driver : outcome (@driver D64) :=
  fixed_source_create (text_ext D64 []) double_problem.
Definition alternate : list nat := List.concat (repeat [0; 1]%nat 60).
Definition alone : list nat := (repeat 0 60 ++ repeat 1 60)%nat%list.
Notation double_run dr schedule :=
  (run_schedule (G := Minstd D64) dr 50 (solver_start dr 0) schedule).

Definition all_succeeded (sv : @solver D64) : bool :=
  forallb (fun wk => match wk with Done _ => true | _ => false end) (sv_workers sv).
Lemma all_succeeded_spec sv : all_succeeded sv = true -> List.Forall succeeded (sv_workers sv).
Proof.
  unfold all_succeeded. intros H. apply Forall_forall. intros wk Hin.
  rewrite forallb_forall in H. specialize (H wk Hin). destruct wk; try discriminate. exact I.
Qed.

(** The sums of the first sensitivity of the first estimator. *)
Definition effects_of (o : outcome (estimator_set D64)) : list spec_float :=
  match o with
  | Ok (mkEstSet (e :: _) _) =>
      match es_sens e with sn :: _ => sc_scores (sn_scorable sn) | [] => [] end
  | _ => []
  end.

Lemma double_ok : exists dr, double_driver = Ok dr.
Proof.
  assert (K : match double_driver with Ok _ => true | _ => false end = true)
    by (match goal with |- _ = ?r => vm_cast_no_check (eq_refl r) end).
  destruct double_driver as [dr| | | |]; try discriminate. eauto.
Qed.
Lemma double_differs : exists dr, double_driver = Ok dr
  /\ all_succeeded (double_run dr alone) = true /\ all_succeeded (double_run dr alternate) = true
  /\ effects_of (solver_result dr (double_run dr alone)) = [S754_finite false 7799822804957171 (-50)]
  /\ effects_of (solver_result dr (double_run dr alternate))
     = [S754_finite false 7799822804957172 (-50)].
Proof.
  destruct double_ok as (dr & E). exists dr.
  split; [exact E|].
  assert (K : match double_driver with
    | Ok dr => (all_succeeded (double_run dr alone), all_succeeded (double_run dr alternate),
                effects_of (solver_result dr (double_run dr alone)),
                effects_of (solver_result dr (double_run dr alternate)))
    | _ => (false, false, [], []) end
    = (true, true, [S754_finite false 7799822804957171 (-50)],
       [S754_finite false 7799822804957172 (-50)])).
  { match goal with |- _ = ?r => vm_cast_no_check (eq_refl r) end. }
  rewrite E in K. apply pair_equal_spec in K as [K K4]. apply pair_equal_spec in K as [K K3].
  apply pair_equal_spec in K as [K1 K2]. repeat split; assumption.
Qed.

Lemma double_schedules : exists (dr : @driver D64) fuel schedule schedule' r r',
  let run := run_schedule (G := Minstd D64) dr fuel (solver_start dr 0) in
  List.Forall succeeded (sv_workers (run schedule))
  /\ List.Forall succeeded (sv_workers (run schedule'))
  /\ solver_result dr (run schedule) = Ok r /\ solver_result dr (run schedule') = Ok r'
  /\ r <> r'.
Proof.
  destruct double_differs as (dr & E & S1 & S2 & K1 & K2).
  apply all_succeeded_spec in S1, S2.
  destruct (solver_result dr (double_run dr alone)) as [r| | | |] eqn:R1; try discriminate K1.
  destruct (solver_result dr (double_run dr alternate)) as [r'| | | |] eqn:R2; try discriminate K2.
  exists dr, 50%nat, alone, alternate, r, r'. cbv zeta.
  split; [exact S1|]. split; [exact S2|].
  split; [exact R1|]. split; [exact R2|]. intros Er. rewrite <- Er, K1 in K2. discriminate K2.
Qed.
Lemma C78_sensitivity_refuted_proof :
  exists (L : Libm) (dr : @driver (F64 L)) fuel schedule schedule' r r',
  let run := run_schedule (G := Minstd (F64 L)) dr fuel (solver_start dr 0) in
  List.Forall succeeded (sv_workers (run schedule))
  /\ List.Forall succeeded (sv_workers (run schedule'))
  /\ solver_result dr (run schedule) = Ok r /\ solver_result dr (run schedule') = Ok r'
  /\ r <> r'.
Proof. exists sample_libm. exact double_schedules. Qed.

(** The histories of the sample are short. *)
Section Few.
  Context {A : Arith} {G : Rng A}.
  Lemma few_short limit (hs : list (list (particle A G))) :
    (Zsum (map (fun h => Z.of_nat (length h) * Z.of_nat (length h)) hs) <= limit)%Z ->
    few_crossings limit hs.
  Proof.
    intros H surface. etransitivity; [|exact H]. apply Zsum_le. intros h.
    unfold crossings, howmany. pose proof (filter_le (crossed surface) h). nia.
  Qed.
End Few.
Definition double_history (dr : @driver D64) (i : N) : outcome (list (particle D64 (Minstd D64))) :=
  bank_loop keep dr 50 [] [history_start dr i].
Lemma double_histories : exists dr hs, double_driver = Ok dr
  /\ Forall2 (history (G := Minstd D64) dr) (below (dr_batchsize dr)) hs
  /\ few_crossings (2 ^ 53) hs.
Proof.
  destruct double_ok as (dr & E). exists dr.
  assert (K : match double_driver with
    | Ok dr => match mapM (double_history dr) (below (dr_batchsize dr)) with
               | Ok hs => (Zsum (map (fun h => Z.of_nat (length h) * Z.of_nat (length h)) hs) <=? 2 ^ 53)%Z
               | _ => false end
    | _ => false end = true).
  { match goal with |- _ = ?r => vm_cast_no_check (eq_refl r) end. }
  rewrite E in K. destruct (mapM _ _) as [hs| | | |] eqn:M; try discriminate.
  exists hs. split; [exact E|]. split.
  - apply mapM_ok in M. clear - M. induction M; constructor; auto.
    apply shown_history. now exists 50%nat.
  - apply few_short. now apply Z.leb_le.
Qed.
Lemma double_created dr : double_driver = Ok dr ->
  blank_set (dr_init dr) /\ unique_names (dr_init dr)
  /\ dr_batchsize dr = 24%N /\ dr_threads dr = 2%N.
Proof.
  intros E. destruct (C57_created_proof D64 (text_ext D64 []) double_problem _ dr E) as (B & U & _).
  split; [exact B|]. split.
  - apply U.
    + repeat constructor. intros [].
    + intros n [<-|[]]. repeat constructor. intros [].
  - assert (K : match double_driver with Ok dr => (dr_batchsize dr, dr_threads dr) | _ => (0, 0)%N end
      = (24, 2)%N) by (match goal with |- _ = ?r => vm_cast_no_check (eq_refl r) end).
    rewrite E in K. now apply pair_equal_spec in K.
Qed.

(** The same run has few crossings in all, and a weight of 24 histories. *)
Lemma double_few : exists dr hs, double_driver = Ok dr
  /\ Forall2 (history (G := Minstd D64) dr) (below (dr_batchsize dr)) hs
  /\ (forall surface, Zsum (map (crossings surface) hs) <= 94906265)%Z
  /\ ss_weight (dr_init dr) = f64_ofZ 24.
Proof.
  destruct double_ok as (dr & E). exists dr.
  assert (K : match double_driver with
    | Ok dr => match mapM (double_history dr) (below (dr_batchsize dr)) with
               | Ok hs => (Zsum (map (fun h => Z.of_nat (length h)) hs) <=? 94906265)%Z
               | _ => false end
    | _ => false end = true).
  { match goal with |- _ = ?r => vm_cast_no_check (eq_refl r) end. }
  assert (W : match double_driver with Ok dr => ss_weight (dr_init dr) | _ => S754_nan end = f64_ofZ 24).
  { match goal with |- _ = ?r => vm_cast_no_check (eq_refl r) end. }
  rewrite E in K, W. destruct (mapM _ _) as [hs| | | |] eqn:M; try discriminate.
  exists hs. split; [exact E|]. split.
  - apply mapM_ok in M. clear - M. induction M; constructor; auto.
    apply shown_history. now exists 50%nat.
  - split; [|exact W]. apply Z.leb_le in K. intros surface. etransitivity; [|exact K].
    apply Zsum_le. intros h. unfold crossings, howmany. pose proof (filter_le (crossed surface) h). lia.
Qed.
