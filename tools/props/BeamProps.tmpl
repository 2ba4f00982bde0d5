(** Property C86: what is counted behind an absorber. *)
From Coq Require Import Bool String List Reals ZArith NArith Lra Lia.
From Verif Require Import Model.Num Model.Outcome Model.Rng Model.Xml Model.Std Model.Point
  Model.Surface Model.Types Model.Bins Model.Field Model.Particle Model.Multigroup
  Model.Continuous Model.Material Model.World Model.Perturbation Model.Estimator Model.Transport
  Model.Driver
  Spec.Vec Spec.CellSpec Spec.GeometrySpec Spec.RngSpec Spec.SumSpec Spec.MultigroupSpec
  Spec.MaterialSpec Spec.TextExt Spec.TransportSpec Spec.EstimatorSpec Spec.SolverSpec
  Spec.FrequencySpec Spec.BeamSpec
  Proofs.RealLib Proofs.GeometryProofs Proofs.CrossingProofs Proofs.RngProofs Proofs.SampleProblem
  Proofs.SampleTally Proofs.BeamProofs Proofs.SampleBeam.
Import ListNotations.
Local Open Scope string_scope.
Local Open Scope R_scope.

(** C86 *)
@@C86_absorber
@@C86_attenuation
@@C86_completes

(** Neutrons fly from the origin along x through ten units of the absorber; a whole cycle
    of histories is run. *)
Definition beam_driver (t : tracking) : @driver XRa :=
  mkDriver (A := XRa) slab_world [] cycle 1
    (mkEstSet (A := XRa) [mkEst (tally "through" 0 0) 0 []] (Fin (IZR (Z.of_N cycle)))) 4 t
    (mkSource (A := XRa) (pt (V3 0 0 0)) (DirConstant (A := XRa) (pt (V3 1 0 0))) (Group 1) neutron).
Example C86_case : forall t,
  let dr := beam_driver t in
  beam slab_ext [1]%N dr (V3 0 0 0) (V3 1 0 0) 1 edge 10 1
  /\ dr_batchsize dr = cycle /\ (dr_seed dr + cycle <= 2 ^ 64)%N
  /\ (dr_batchsize dr + dr_threads dr <= 2 ^ 64)%N /\ (0 < dr_threads dr)%N
  /\ blank_set (dr_init dr) /\ unique_names (dr_init dr)
  /\ ss_weight (dr_init dr) = Fin (IZR (Z.of_N (dr_batchsize dr)))
  /\ NoDup (map pt_id (dr_perts dr))
  /\ List.Forall (ready (dr_perts dr) (V3 1 0 0) 1 edge) (ss_estimators (dr_init dr))
  /\ (forall n, exists schedule, fair dr n schedule)
  (* so that exp(-10) of the neutrons are counted *)
  /\ sees_beam (V3 1 0 0) 1 edge (mkEst (tally "through" 0 0) 0 []) 0.
Proof.
  intros t dr. split.
  { replace 10 with (10 - 0) by lra. apply slab_beam; [reflexivity|lra|reflexivity]. }
  split; [reflexivity|]. split; [vm_compute; discriminate|]. split; [vm_compute; discriminate|].
  split; [reflexivity|].
  split; [intros e [<-|[]]; split; [exists 1%nat; split; reflexivity|intros sn []]|].
  split; [split; [repeat constructor; intros []|intros e [<-|[]]; constructor]|].
  split; [reflexivity|].
  split; [constructor|].
  split; [constructor; [|constructor]; split; [|intros sn []]; intros _; exists 0%nat;
    repeat split; reflexivity || (cbn; lia)|].
  split; [|split; reflexivity].
  apply fair_exists.
Qed.
