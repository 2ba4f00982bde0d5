(** A beam through the slab of the sample problem. *)
From Coq Require Import Bool String List Reals ZArith NArith Lra Lia.
From Verif Require Import Model.Num Model.Outcome Model.Rng Model.Xml Model.Std Model.Point
  Model.Surface Model.Types Model.Bins Model.Field Model.Particle Model.Multigroup
  Model.Continuous Model.Material Model.World Model.Perturbation Model.Estimator Model.Transport
  Model.Driver
  Spec.Vec Spec.CellSpec Spec.GeometrySpec Spec.RngSpec Spec.SumSpec Spec.MultigroupSpec
  Spec.MaterialSpec Spec.TextExt Spec.TransportSpec Spec.EstimatorSpec Spec.SolverSpec
  Spec.FrequencySpec Spec.BeamSpec
  Proofs.RealLib Proofs.GeometryProofs Proofs.CrossingProofs Proofs.SampleProblem
  Proofs.SampleTally.
Import ListNotations.
Local Open Scope string_scope.
Local Open Scope R_scope.

Lemma slab_beam (dr : @driver XRa) x : dr_world dr = slab_world -> x < 10 ->
  dr_source dr = mkSource (A := XRa) (pt (V3 x 0 0)) (DirConstant (A := XRa) (pt (V3 1 0 0)))
                   (Group 1) neutron ->
  beam slab_ext [1]%N dr (V3 x 0 0) (V3 1 0 0) 1 edge (10 - x) 1.
Proof.
  intros Ew Hx Es. assert (Hn : exists k, nudge (A := XRa) = Fin k /\ 0 < k) by apply nudge_fin.
  constructor; rewrite ?Ew.
  - exact Es.
  - apply unit_x.
  - now left.
  - exact slab_multigroup.
  - exact slab_plain.
  - exists slab, slab_material, 1, (1 * sigma slab_ext slab_node Rcapture 1 + 0).
    split.
    { exists [], [outside]. split; [reflexivity|]. split; [|intros ? []]. apply in_slab. exact Hx. }
    split; [reflexivity|]. split; [reflexivity|]. split.
    { destruct slab_sigma as (_ & S2 & S3).
      exact (Absorb_one slab_ext [1]%N 1 slab_nuclide 1 slab_node slab_data [] 0 eq_refl
        slab_created slab_sensible slab_groups S2 S3 (Absorb_none _ _ _)). }
    split; [destruct slab_sigma as (-> & _); lra|].
    split; [exists true; now left|]. split.
    { etransitivity; [apply (planex_distance 10 (V3 x 0 0) (V3 1 0 0))|].
      cbn [vx]. decide_reals. f_equal. lra. }
    split; [lra|]. intros s' (b & [[= <- _]|[]]). now left.
  - destruct Hn as (k & Ek & Hk). exists k, outside. split; [exact Ek|]. split; [|reflexivity].
    exists [slab], []. split; [reflexivity|]. split.
    + apply in_outside. cbn. lra.
    + intros c' [<-|[]]. rewrite in_slab. cbn. lra.
Qed.


Lemma fair_exists (dr : @driver XRa) n : exists schedule, fair dr n schedule.
Proof.
  assert (K : forall m, exists schedule, forall i, (i < m)%nat ->
     (n <= count_occ Nat.eq_dec schedule i)%nat).
  { induction m as [|m (sc & H)]; [exists []; lia|]. exists (repeat m n ++ sc)%list. intros i Hi.
    rewrite count_occ_app. destruct (Nat.eq_dec i m) as [->|Ne].
    - rewrite count_occ_repeat_eq by reflexivity. lia.
    - specialize (H i ltac:(lia)). lia. }
  destruct (K (N.to_nat (dr_threads dr))) as (sc & H). exists sc. intros i Hi. now apply H.
Qed.
