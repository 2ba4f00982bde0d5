(** Property C88: sensitivities of what is counted behind an absorber. *)
From Coq Require Import Bool String List Reals ZArith NArith Lra Lia.
From Coquelicot Require Import Coquelicot.
From Verif Require Import Model.Num Model.Outcome Model.Rng Model.Xml Model.Std Model.Point
  Model.Surface Model.Types Model.Bins Model.Field Model.Particle Model.Multigroup
  Model.Continuous Model.Material Model.World Model.Perturbation Model.Estimator Model.Transport
  Model.Driver
  Spec.Vec Spec.CellSpec Spec.GeometrySpec Spec.RngSpec Spec.SumSpec Spec.MultigroupSpec
  Spec.MaterialSpec Spec.TextExt Spec.TransportSpec Spec.EstimatorSpec Spec.SolverSpec
  Spec.FrequencySpec Spec.PerturbSpec Spec.BeamSpec Spec.SensSpec
  Proofs.RealLib Proofs.SampleProblem Proofs.SampleTally Proofs.SampleBeam Proofs.BeamSensProofs.
Import ListNotations.
Local Open Scope string_scope.
Local Open Scope R_scope.

(** C88 *)
Theorem C88_value :
  forall (G : Rng XRa) (X : Ext XRa) Gs (dr : @driver XRa) o v g s (L rate : R) c m (x k : R)
         fuel schedule,
  valid_rng G -> beam X Gs dr o v g s L rate ->
  first_cell (dr_world dr) (pt o) c -> c_material c = Some m ->
  absorption X Gs g (m_afracs m) x -> nudge (A := XRa) = Fin k ->
  (dr_batchsize dr + dr_threads dr <= 2 ^ 64)%N -> (0 < dr_threads dr)%N -> (0 < dr_batchsize dr)%N ->
  blank_set (dr_init dr) -> unique_names (dr_init dr) ->
  ss_weight (dr_init dr) = Fin (IZR (Z.of_N (dr_batchsize dr))) ->
  NoDup (map pt_id (dr_perts dr)) ->
  (forall e sn, In e (ss_estimators (dr_init dr)) -> In sn (es_sens e) ->
     own_sensitivity (dr_perts dr) e sn) ->
  let sv := run_schedule (G := G) dr fuel (solver_start dr 0) schedule in
  List.Forall succeeded (sv_workers sv) ->
  exists r, solver_result dr sv = Ok r
    /\ Forall2 (fun e e' : estimator XRa => Forall2 (fun sn sn' : sensitivity XRa =>
         forall pert i, In pert (dr_perts dr) -> pt_id pert = sn_pert sn ->
         (i < length (sc_scores (es_scorable e)))%nat ->
         (i < length (sc_scores (sn_scorable sn)))%nat ->
         (* what is printed for the sensitivity is a multiple of what is printed for its
            estimator *)
         exists mu dev effect, reported (es_scorable e') (ss_weight r) i mu dev
           /\ reported (sn_scorable sn') (ss_weight r) i (effect * mu) (Rabs effect * dev)
           /\ (contains_nuclide m (pt_nuclide pert) -> effect = 1 / x - (L + k))
           /\ (~ contains_nuclide m (pt_nuclide pert) -> effect = 0))
         (es_sens e) (es_sens e'))
       (ss_estimators (dr_init dr)) (ss_estimators r).
Proof. exact C88_value_proof. Qed.
Print Assumptions C88_value.
Theorem C88_error :
  forall (X : Ext XRa) Gs (dr : @driver XRa) o v g s (L rate : R) c m (d x k : R) fuel schedule,
  beam X Gs dr o v g s L rate ->
  first_cell (dr_world dr) (pt o) c -> c_material c = Some m -> m_density m = Fin d ->
  absorption X Gs g (m_afracs m) x -> nudge (A := XRa) = Fin k ->
  dr_batchsize dr = cycle -> (dr_seed dr + cycle <= 2 ^ 64)%N ->
  (dr_batchsize dr + dr_threads dr <= 2 ^ 64)%N -> (0 < dr_threads dr)%N ->
  blank_set (dr_init dr) -> unique_names (dr_init dr) ->
  ss_weight (dr_init dr) = Fin (IZR (Z.of_N (dr_batchsize dr))) ->
  NoDup (map pt_id (dr_perts dr)) ->
  (forall e sn, In e (ss_estimators (dr_init dr)) -> In sn (es_sens e) ->
     own_sensitivity (dr_perts dr) e sn) ->
  let sv := run_schedule (G := Minstd XRa) dr fuel (solver_start dr 0) schedule in
  List.Forall succeeded (sv_workers sv) ->
  exists r, solver_result dr sv = Ok r
    /\ Forall2 (fun e e' : estimator XRa => Forall2 (fun sn sn' : sensitivity XRa =>
         forall pert i, In pert (dr_perts dr) -> pt_id pert = sn_pert sn ->
         (i < length (sc_scores (es_scorable e)))%nat ->
         (i < length (sc_scores (sn_scorable sn)))%nat ->
         contains_nuclide m (pt_nuclide pert) -> sees_beam v g s e i ->
         exists (mu dev slope : R), reported (sn_scorable sn') (ss_weight r) i mu dev
           /\ is_derive (attenuation d x L) 0 slope
           (* the printed value is too large by (1/x + (d-1)L - nudge) for every neutron
              that comes through *)
           /\ Rabs (mu - (slope + (1 / x + (d - 1) * L - k) * attenuation d x L 0))
              <= Rabs (1 / x - (L + k)) * (2 / IZR (Z.of_N cycle)))
         (es_sens e) (es_sens e'))
       (ss_estimators (dr_init dr)) (ss_estimators r).
Proof. exact C88_error_proof. Qed.
Print Assumptions C88_error.
Theorem C88_untouched_partial :
  forall (G : Rng XRa) (X : Ext XRa) Gs (dr : @driver XRa) o v g s (L rate : R) c m fuel schedule,
  valid_rng G -> beam X Gs dr o v g s L rate ->
  first_cell (dr_world dr) (pt o) c -> c_material c = Some m ->
  (dr_batchsize dr + dr_threads dr <= 2 ^ 64)%N -> (0 < dr_threads dr)%N -> (0 < dr_batchsize dr)%N ->
  blank_set (dr_init dr) -> unique_names (dr_init dr) ->
  ss_weight (dr_init dr) = Fin (IZR (Z.of_N (dr_batchsize dr))) ->
  NoDup (map pt_id (dr_perts dr)) ->
  (forall e sn, In e (ss_estimators (dr_init dr)) -> In sn (es_sens e) ->
     own_sensitivity (dr_perts dr) e sn) ->
  let sv := run_schedule (G := G) dr fuel (solver_start dr 0) schedule in
  List.Forall succeeded (sv_workers sv) ->
  exists r, solver_result dr sv = Ok r
    /\ Forall2 (fun e e' : estimator XRa => Forall2 (fun sn sn' : sensitivity XRa =>
         forall pert i, In pert (dr_perts dr) -> pt_id pert = sn_pert sn ->
         (i < length (sc_scores (es_scorable e)))%nat ->
         (i < length (sc_scores (sn_scorable sn)))%nat ->
         (* missing: perturbations of nuclides of the absorber *)
         ~ contains_nuclide m (pt_nuclide pert) ->
         reported (sn_scorable sn') (ss_weight r) i 0 0)
         (es_sens e) (es_sens e'))
       (ss_estimators (dr_init dr)) (ss_estimators r).
Proof. exact C88_untouched_partial_proof. Qed.
Print Assumptions C88_untouched_partial.
Theorem C88_derivative_refuted :
  forall t, exists (dr : @driver XRa) fuel schedule r e sn (mu dev slope : R),
  dr_tracking dr = t
  (* a beam through half a unit of an absorber of atom density one and cross section one *)
  /\ beam slab_ext [1]%N dr (V3 (19 / 2) 0 0) (V3 1 0 0) 1 edge (1 / 2) 1
  /\ solver_result dr (run_schedule (G := Minstd XRa) dr fuel (solver_start dr 0) schedule) = Ok r
  /\ In e (ss_estimators r) /\ In sn (es_sens e)
  /\ reported (sn_scorable sn) (ss_weight r) 0 mu dev
  /\ is_derive (attenuation 1 1 (1 / 2)) 0 slope
  (* the printed sensitivity has the wrong sign *)
  /\ slope < - (1 / 5) /\ 1 / 5 < mu.
Proof. exact C88_derivative_refuted_proof. Qed.
Print Assumptions C88_derivative_refuted.

(** Neutrons fly through the last half unit of the absorber; the capture cross section of
    its only nuclide is perturbed. *)
Example C88_case : forall t, let dr := slope_driver t in
  beam slab_ext [1]%N dr (V3 (19 / 2) 0 0) (V3 1 0 0) 1 edge (1 / 2) 1
  /\ (exists c, first_cell (dr_world dr) (pt (V3 (19 / 2) 0 0)) c /\ c_material c = Some slab_material)
  /\ m_density slab_material = Fin 1 /\ absorption slab_ext [1]%N 1 (m_afracs slab_material) 1
  /\ contains_nuclide slab_material (pt_nuclide more)
  /\ dr_batchsize dr = cycle /\ (dr_seed dr + cycle <= 2 ^ 64)%N
  /\ (dr_batchsize dr + dr_threads dr <= 2 ^ 64)%N /\ (0 < dr_threads dr)%N
  /\ blank_set (dr_init dr) /\ unique_names (dr_init dr)
  /\ ss_weight (dr_init dr) = Fin (IZR (Z.of_N (dr_batchsize dr)))
  /\ NoDup (map pt_id (dr_perts dr))
  /\ (forall e sn, In e (ss_estimators (dr_init dr)) -> In sn (es_sens e) ->
        own_sensitivity (dr_perts dr) e sn)
  /\ List.Forall (ready (dr_perts dr) (V3 1 0 0) 1 edge) (ss_estimators (dr_init dr)).
Proof. exact slope_ready. Qed.
(** A perturbation of a nuclide that is not in the absorber. *)
Example C88_other :
  ~ contains_nuclide slab_material (pt_nuclide (mkPert (A := XRa) 0 "other"
      (mkNuclide (A := XRa) 7 "other" (nu_xs slab_nuclide)))).
Proof. intros (x & [<-|[]] & H). discriminate H. Qed.
