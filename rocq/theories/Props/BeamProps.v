(** Property C86: what is counted behind an absorber. *)
From Coq Require Import Bool String List Reals ZArith NArith Lra Lia.
From Verif Require Import Model.Num Model.Outcome Model.Rng Model.Xml Model.Std Model.Point
  Model.Surface Model.Types Model.Bins Model.Field Model.Particle Model.Multigroup
  Model.Continuous Model.Material Model.World Model.Perturbation Model.Estimator Model.Transport
  Model.Driver
  Spec.Vec Spec.CellSpec Spec.GeometrySpec Spec.RngSpec Spec.SumSpec Spec.MultigroupSpec
  Spec.MaterialSpec Spec.TextExt Spec.TransportSpec Spec.EstimatorSpec Spec.SolverSpec
  Spec.FrequencySpec Spec.BeamSpec
  Proofs.RealLib Proofs.GeometryProofs Proofs.CrossingProofs Proofs.RngProofs Proofs.SampleProblem
  Proofs.SampleTally Proofs.BeamProofs Proofs.SampleBeam.
Import ListNotations.
Local Open Scope string_scope.
Local Open Scope R_scope.

(** C86 *)
Theorem C86_absorber :
  forall (G : Rng XRa) (X : Ext XRa) Gs (dr : @driver XRa) o v g s (L rate : R) fuel schedule,
  valid_rng G -> beam X Gs dr o v g s L rate ->
  (dr_batchsize dr + dr_threads dr <= 2 ^ 64)%N -> (0 < dr_threads dr)%N -> (0 < dr_batchsize dr)%N ->
  blank_set (dr_init dr) -> unique_names (dr_init dr) ->
  ss_weight (dr_init dr) = Fin (IZR (Z.of_N (dr_batchsize dr))) ->
  let sv := run_schedule (G := G) dr fuel (solver_start dr 0) schedule in
  List.Forall succeeded (sv_workers sv) ->
  exists r, solver_result dr sv = Ok r
    /\ Forall2 (fun e e' : estimator XRa => forall i, (i < length (sc_scores (es_scorable e)))%nat ->
         (* the histories whose first random number takes them to the surface are counted *)
         exists n, counts (fun j : N => (j < dr_batchsize dr)%N /\ sees_beam v g s e i
             /\ exists u, draw G 0 (p_rng (history_start (G := G) dr j)) = Fin u
                          /\ transmitted (dr_tracking dr) rate L u) n
           /\ let x := IZR (Z.of_N n) / IZR (Z.of_N (dr_batchsize dr)) in
              nth_error (sc_means (es_scorable e') (ss_weight r)) i = Some (Fin x)
              /\ nth_error (sc_stddevs (es_scorable e') (ss_weight r)) i
                 = Some (Fin (sqrt (x * (1 - x)) / sqrt (IZR (Z.of_N (dr_batchsize dr))))))
       (ss_estimators (dr_init dr)) (ss_estimators r).
Proof. exact C86_absorber_proof. Qed.
Print Assumptions C86_absorber.
Theorem C86_attenuation :
  forall (X : Ext XRa) Gs (dr : @driver XRa) o v g s (L rate : R) fuel schedule,
  beam X Gs dr o v g s L rate ->
  dr_batchsize dr = cycle -> (dr_seed dr + cycle <= 2 ^ 64)%N ->
  (dr_batchsize dr + dr_threads dr <= 2 ^ 64)%N -> (0 < dr_threads dr)%N ->
  blank_set (dr_init dr) -> unique_names (dr_init dr) ->
  ss_weight (dr_init dr) = Fin (IZR (Z.of_N (dr_batchsize dr))) ->
  let sv := run_schedule (G := Minstd XRa) dr fuel (solver_start dr 0) schedule in
  List.Forall succeeded (sv_workers sv) ->
  exists r, solver_result dr sv = Ok r
    /\ Forall2 (fun e e' : estimator XRa => forall i, (i < length (sc_scores (es_scorable e)))%nat ->
         exists x, nth_error (sc_means (es_scorable e') (ss_weight r)) i = Some (Fin x)
           (* the part exp(-rate*L) of the beam is counted, and nothing in other bins *)
           /\ (sees_beam v g s e i -> Rabs (x - exp (- (rate * L))) <= 2 / IZR (Z.of_N cycle))
           /\ (~ sees_beam v g s e i -> x = 0))
       (ss_estimators (dr_init dr)) (ss_estimators r).
Proof. exact C86_attenuation_proof. Qed.
Print Assumptions C86_attenuation.
Theorem C86_completes :
  forall (G : Rng XRa) (X : Ext XRa) Gs (dr : @driver XRa) o v g s (L rate : R) fuel schedule,
  valid_rng G -> beam X Gs dr o v g s L rate ->
  (dr_batchsize dr + dr_threads dr <= 2 ^ 64)%N ->
  blank_set (dr_init dr) -> unique_names (dr_init dr) -> NoDup (map pt_id (dr_perts dr)) ->
  List.Forall (ready (dr_perts dr) v g s) (ss_estimators (dr_init dr)) ->
  (2 <= fuel)%nat -> fair dr (2 * N.to_nat (dr_batchsize dr) + 1) schedule ->
  List.Forall succeeded
    (sv_workers (run_schedule (G := G) dr fuel (solver_start dr 0) schedule)).
Proof. exact C86_completes_proof. Qed.
Print Assumptions C86_completes.

(** Neutrons fly from the origin along x through ten units of the absorber; a whole cycle
    of histories is run. *)
Definition beam_driver (t : tracking) : @driver XRa :=
  mkDriver (A := XRa) slab_world [] cycle 1
    (mkEstSet (A := XRa) [mkEst (tally "through" 0 0) 0 []] (Fin (IZR (Z.of_N cycle)))) 4 t
    (mkSource (A := XRa) (pt (V3 0 0 0)) (DirConstant (A := XRa) (pt (V3 1 0 0))) (Group 1) neutron).
Example C86_case : forall t,
  let dr := beam_driver t in
  beam slab_ext [1]%N dr (V3 0 0 0) (V3 1 0 0) 1 edge 10 1
  /\ dr_batchsize dr = cycle /\ (dr_seed dr + cycle <= 2 ^ 64)%N
  /\ (dr_batchsize dr + dr_threads dr <= 2 ^ 64)%N /\ (0 < dr_threads dr)%N
  /\ blank_set (dr_init dr) /\ unique_names (dr_init dr)
  /\ ss_weight (dr_init dr) = Fin (IZR (Z.of_N (dr_batchsize dr)))
  /\ NoDup (map pt_id (dr_perts dr))
  /\ List.Forall (ready (dr_perts dr) (V3 1 0 0) 1 edge) (ss_estimators (dr_init dr))
  /\ (forall n, exists schedule, fair dr n schedule)
  (* so that exp(-10) of the neutrons are counted *)
  /\ sees_beam (V3 1 0 0) 1 edge (mkEst (tally "through" 0 0) 0 []) 0.
Proof.
  intros t dr. split.
  { replace 10 with (10 - 0) by lra. apply slab_beam; [reflexivity|lra|reflexivity]. }
  split; [reflexivity|]. split; [vm_compute; discriminate|]. split; [vm_compute; discriminate|].
  split; [reflexivity|].
  split; [intros e [<-|[]]; split; [exists 1%nat; split; reflexivity|intros sn []]|].
  split; [split; [repeat constructor; intros []|intros e [<-|[]]; constructor]|].
  split; [reflexivity|].
  split; [constructor|].
  split; [constructor; [|constructor]; split; [|intros sn []]; intros _; exists 0%nat;
    repeat split; reflexivity || (cbn; lia)|].
  split; [|split; reflexivity].
  apply fair_exists.
Qed.
