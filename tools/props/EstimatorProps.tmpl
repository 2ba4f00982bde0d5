(** Properties C50-C54: estimators and their sensitivities. *)
From Coq Require Import Bool String List Reals ZArith NArith Lra Lia Permutation Floats.SpecFloat.
From Verif Require Import Model.Num Model.Outcome Model.Rng Model.Xml Model.Std Model.Point
  Model.Surface Model.Types Model.Bins Model.Field Model.Particle Model.Material Model.World
  Model.Perturbation Model.Estimator Model.Transport Model.Driver
  Spec.SumSpec Spec.TextExt Spec.TransportSpec Spec.HistorySpec Spec.EstimatorSpec
  Proofs.RealLib Proofs.RngProofs Proofs.CrossingProofs Proofs.SampleProblem
  Proofs.HistoryProofs Proofs.EstimatorProofs Proofs.TallyProofs Proofs.MergeProofs
  Proofs.SampleTally.
Import ListNotations.
Local Open Scope string_scope.
Local Open Scope R_scope.

(** C50: a history is the events of a whole family (Spec/HistorySpec.v, C61). *)
@@C50_crossings
@@C50_created

(** The sample problem: a neutron leaks through the surface of the estimator. *)
Example C50_case :
  estimator_set_create slab_ext slab_world [more] (Fin 2 : num XRa) tally_node
  = Ok (tallies 2 0 0 0 0)
  /\ exists u v, run_history (G := half_rng) slab_driver 2 (tallies 2 0 0 0 0) 5
                 = Ok (tallies 2 (0 + 1) (0 + 1) u v).
Proof.
  split; [apply tallies_created|]. destruct nudge_fin as (k & Ek & _).
  do 2 eexists. apply (slab_history k 0 2 0 0 0 0 5 Ek).
Qed.

(** C51: sums, and sums of squares, of the totals of histories. *)
@@C51_sums
@@C51_histories
@@C51_untouched

Example C51_case :
  (exists u v, foldM (run_history (G := half_rng) slab_driver 2) [0; 1]%N (tallies 2 0 0 0 0)
               = Ok (tallies 2 (0 + 1 + 1) (0 + 1 + 1) u v))
  /\ neqb XRa (nofZ XRa 0) (nofZ XRa 0) = true
  /\ (forall L, neqb (F64 L) (nofZ (F64 L) 0) (nofZ (F64 L) 0) = true)
  /\ (* a birth scores nothing *)
     run_events (tallies 2 0 0 0 0) [set_perturbations [more] slab_start] = Ok (tallies 2 0 0 0 0)
  /\ crossed 0 slab_start = false.
Proof.
  destruct nudge_fin as (k & Ek & _). split; [|split; [|split; [|split]]].
  - do 2 eexists. cbn [foldM]. rewrite (slab_history k 0 2 0 0 0 0 0 Ek). cbn [bind].
    rewrite (slab_history k 0 2 _ _ _ _ 1 Ek). reflexivity.
  - apply Reqb_true. reflexivity.
  - reflexivity.
  - unfold run_events. cbn [foldM].
    replace (set_proxy_score _ _ _)
      with (Ok [([], [[]])] : outcome (list (est_proxy XRa))); [reflexivity|].
    unfold set_proxy_score, tallies. cbn [map ss_estimators combine mapM fst snd bind new_set_proxy].
    unfold est_proxy_score, sens_score. cbn [es_scorable es_surface es_sens new_proxy fst snd map
      combine mapM sn_surface sn_pert sn_scorable].
    assert (P : forall s, s = 0 -> proxy_score (A := XRa) one_bin (Fin s) []
                  (set_perturbations [more] slab_start) = Ok []).
    { intros s ->. unfold proxy_score. cbn. rewrite Reqb_true by auto. reflexivity. }
    change (current_score 0 (set_perturbations [more] slab_start)) with (Fin 0).
    change (get_indirect (set_perturbations [more] slab_start) 0) with (Ok (Fin 0 : num XRa)).
    cbn [bind]. change (nmul XRa (Fin 0) (Fin 0)) with (Fin (0 * 0)).
    change (sc_bins (tally ?n ?x ?y)) with one_bin. change (num XRa) with xr in *.
    rewrite !P by lra. reflexivity.
  - reflexivity.
Qed.

(** C52: the printed mean and standard deviation. The exact radicand is never
    negative; with rounding it can be, and the printed deviation is then NaN. *)
@@C52_radicand
@@C52_statistics
@@C52_asked
@@C52_binary64_refuted

(** Two histories of the sample problem: the totals are 1 and 1. *)
Example C52_case :
  sc_get_score (tally "through" 3 5) 0 (Fin 2) = Ok (Fin (3 / 2) : num XRa)
  /\ sc_get_score (tally "through" 3 5) 1 (Fin 2) = Terminate
  /\ blank_set (tallies 2 0 0 0 0)
  /\ exists hs : list (list (particle XRa half_rng)),
     length hs = 2%nat /\ ss_weight (tallies 2 0 0 0 0) = Fin (INR (length hs))
     /\ exists u v, run_all (tallies 2 0 0 0 0) hs = Ok (tallies 2 (0 + 1 + 1) (0 + 1 + 1) u v).
Proof.
  split; [cbn; now destruct (Reqb_spec 2 0); [lra|]|]. split; [reflexivity|]. split.
  - intros e [<-|[]]. split; [exists 1%nat; split; reflexivity|].
    intros sn [<-|[]]. exists 1%nat. split; reflexivity.
  - destruct nudge_fin as (k & Ek & _).
    pose proof (slab_history k 0 2 0 0 0 0 0 Ek) as H1.
    apply run_history_shown in H1 as (h1 & _ & H1).
    pose proof (slab_history k 0 2 (0 + 1) (0 + 1) (0 + effect k) (0 + effect k * effect k) 1 Ek) as H2.
    apply run_history_shown in H2 as (h2 & _ & H2).
    exists [h1; h2]. split; [reflexivity|]. split; [cbn; f_equal; lra|].
    do 2 eexists. unfold run_all. cbn [foldM]. rewrite H1. cbn [bind]. rewrite H2. reflexivity.
Qed.

(** C53 *)
@@C53_merge
@@C53_error
@@C53_order
@@C53_lookup

Example C53_case :
  unique_names (tallies 2 1 1 3 4)
  /\ set_add (tallies 2 1 1 3 4) (tallies 2 5 6 7 8) = Ok (tallies 2 (1 + 5) (1 + 6) (3 + 7) (4 + 8))
  /\ matching (mkEst (tally "through" 1 1) 0 [mkSens (tally "through::more" 3 4) 0 0])
              (mkEst (tally "through" 5 6) 0 [mkSens (tally "through::more" 7 8) 0 0])
  /\ (exists msg, set_add (tallies 2 1 1 3 4) (mkEstSet (A := XRa) [] (Fin 2)) = Throw msg)
  /\ find_estimator (tallies 2 1 1 3 4) "through"
     = Ok (mkEst (tally "through" 1 1) 0 [mkSens (tally "through::more" 3 4) 0 0])
  /\ exists msg, find_estimator (tallies 2 1 1 3 4) "other" = Throw msg.
Proof.
  split; [|split; [|split; [|split; [|split]]]].
  - split; [repeat constructor; intros []|]. intros e [<-|[]]. repeat constructor; intros [].
  - reflexivity.
  - split; [split; reflexivity|]. intros sn [<-|[]]. split.
    + eexists. split; [now left|reflexivity].
    + intros so [<-|[]] _. split; reflexivity.
  - eexists. reflexivity.
  - reflexivity.
  - eexists. reflexivity.
Qed.

(** C54 *)
@@C54_created
@@C54_requested
@@C54_scores

Example C54_case :
  exists e sn, estimator_create slab_ext slab_world [more] (n_first_child tally_node) = Ok e
  /\ es_sens e = [sn] /\ sens_name sn = "through::more"
  /\ exists k, nudge (A := XRa) = Fin k
     /\ run_history (G := half_rng) slab_driver 2 (tallies 2 0 0 0 0) 5
        = Ok (tallies 2 (0 + 1) (0 + 1) (0 + (1 / 1 - (1 / 2 + k)))
                        (0 + (1 / 1 - (1 / 2 + k)) * (1 / 1 - (1 / 2 + k)))).
Proof.
  do 2 eexists. split; [reflexivity|]. split; [reflexivity|]. split; [reflexivity|].
  destruct nudge_fin as (k & Ek & _). exists k. split; auto.
  apply (slab_history k 0 2 0 0 0 0 5 Ek).
Qed.
