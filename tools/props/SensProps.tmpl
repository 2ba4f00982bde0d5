(** Property C88: sensitivities of what is counted behind an absorber. *)
From Coq Require Import Bool String List Reals ZArith NArith Lra Lia.
From Coquelicot Require Import Coquelicot.
From Verif Require Import Model.Num Model.Outcome Model.Rng Model.Xml Model.Std Model.Point
  Model.Surface Model.Types Model.Bins Model.Field Model.Particle Model.Multigroup
  Model.Continuous Model.Material Model.World Model.Perturbation Model.Estimator Model.Transport
  Model.Driver
  Spec.Vec Spec.CellSpec Spec.GeometrySpec Spec.RngSpec Spec.SumSpec Spec.MultigroupSpec
  Spec.MaterialSpec Spec.TextExt Spec.TransportSpec Spec.EstimatorSpec Spec.SolverSpec
  Spec.FrequencySpec Spec.PerturbSpec Spec.BeamSpec Spec.SensSpec
  Proofs.RealLib Proofs.SampleProblem Proofs.SampleTally Proofs.SampleBeam Proofs.BeamSensProofs.
Import ListNotations.
Local Open Scope string_scope.
Local Open Scope R_scope.

(** C88 *)
@@C88_value
@@C88_error
@@C88_untouched_partial
@@C88_derivative_refuted

(** Neutrons fly through the last half unit of the absorber; the capture cross section of
    its only nuclide is perturbed. *)
Example C88_case : forall t, let dr := slope_driver t in
  beam slab_ext [1]%N dr (V3 (19 / 2) 0 0) (V3 1 0 0) 1 edge (1 / 2) 1
  /\ (exists c, first_cell (dr_world dr) (pt (V3 (19 / 2) 0 0)) c /\ c_material c = Some slab_material)
  /\ m_density slab_material = Fin 1 /\ absorption slab_ext [1]%N 1 (m_afracs slab_material) 1
  /\ contains_nuclide slab_material (pt_nuclide more)
  /\ dr_batchsize dr = cycle /\ (dr_seed dr + cycle <= 2 ^ 64)%N
  /\ (dr_batchsize dr + dr_threads dr <= 2 ^ 64)%N /\ (0 < dr_threads dr)%N
  /\ blank_set (dr_init dr) /\ unique_names (dr_init dr)
  /\ ss_weight (dr_init dr) = Fin (IZR (Z.of_N (dr_batchsize dr)))
  /\ NoDup (map pt_id (dr_perts dr))
  /\ (forall e sn, In e (ss_estimators (dr_init dr)) -> In sn (es_sens e) ->
        own_sensitivity (dr_perts dr) e sn)
  /\ List.Forall (ready (dr_perts dr) (V3 1 0 0) 1 edge) (ss_estimators (dr_init dr)).
Proof. exact slope_ready. Qed.
(** A perturbation of a nuclide that is not in the absorber. *)
Example C88_other :
  ~ contains_nuclide slab_material (pt_nuclide (mkPert (A := XRa) 0 "other"
      (mkNuclide (A := XRa) 7 "other" (nu_xs slab_nuclide)))).
Proof. intros (x & [<-|[]] & H). discriminate H. Qed.
