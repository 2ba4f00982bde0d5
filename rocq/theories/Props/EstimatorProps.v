(** Properties C50-C54: estimators and their sensitivities. *)
From Coq Require Import Bool String List Reals ZArith NArith Lra Lia Permutation Floats.SpecFloat.
From Verif Require Import Model.Num Model.Outcome Model.Rng Model.Xml Model.Std Model.Point
  Model.Surface Model.Types Model.Bins Model.Field Model.Particle Model.Material Model.World
  Model.Perturbation Model.Estimator Model.Transport Model.Driver
  Spec.SumSpec Spec.TextExt Spec.TransportSpec Spec.HistorySpec Spec.EstimatorSpec
  Proofs.RealLib Proofs.RngProofs Proofs.CrossingProofs Proofs.SampleProblem
  Proofs.HistoryProofs Proofs.EstimatorProofs Proofs.TallyProofs Proofs.MergeProofs
  Proofs.SampleTally.
Import ListNotations.
Local Open Scope string_scope.
Local Open Scope R_scope.

(** C50: a history is the events of a whole family (Spec/HistorySpec.v, C61). *)
Theorem C50_crossings :
  forall (G : Rng XRa) (dr : @driver XRa) fuel (ss ss' : estimator_set XRa) h,
  run_history (G := G) dr fuel ss h = Ok ss' ->
  exists evs : list (particle XRa G), history dr h evs
    /\ Forall2 (fun e e' : estimator XRa => forall i x, nth_error (sc_scores (es_scorable e)) i = Some x ->
         let n := length (filter (fun p => in_bin (sc_bins (es_scorable e)) i p
                                           && crossed (es_surface e) p) evs) in
         nth_error (sc_scores (es_scorable e')) i = Some (xadd x (Fin (INR n))))
       (ss_estimators ss) (ss_estimators ss').
Proof. exact C50_crossings_proof. Qed.
Print Assumptions C50_crossings.
Theorem C50_created :
  forall (A : Arith) (X : Ext A) (w : world A) pts n e,
  estimator_create X w pts n = Ok e ->
  es_name e = as_string (n_attr n "name")
  /\ (exists before s after, w_surfaces w = (before ++ s :: after)%list
      /\ su_name s = as_string (n_attr n "surface")
      /\ (forall s', In s' before -> su_name s' <> su_name s)
      /\ es_surface e = su_id s)
  /\ pbins_create X (n_child n "bins") = Ok (sc_bins (es_scorable e))
  /\ sc_scores (es_scorable e) = repeat (nofZ A 0) (N.to_nat (pbins_size (sc_bins (es_scorable e))))
  /\ sc_squares (es_scorable e) = repeat (nofZ A 0) (N.to_nat (pbins_size (sc_bins (es_scorable e)))).
Proof. exact C50_created_proof. Qed.
Print Assumptions C50_created.

(** The sample problem: a neutron leaks through the surface of the estimator. *)
Example C50_case :
  estimator_set_create slab_ext slab_world [more] (Fin 2 : num XRa) tally_node
  = Ok (tallies 2 0 0 0 0)
  /\ exists u v, run_history (G := half_rng) slab_driver 2 (tallies 2 0 0 0 0) 5
                 = Ok (tallies 2 (0 + 1) (0 + 1) u v).
Proof.
  split; [apply tallies_created|]. destruct nudge_fin as (k & Ek & _).
  do 2 eexists. apply (slab_history k 0 2 0 0 0 0 5 Ek).
Qed.

(** C51: sums, and sums of squares, of the totals of histories. *)
Theorem C51_sums :
  forall (G : Rng XRa) (hs : list (list (particle XRa G))) (ss ss' : estimator_set XRa),
  run_all ss hs = Ok ss' -> scored_set hs ss ss'.
Proof. exact C51_sums_proof. Qed.
Print Assumptions C51_sums.
Theorem C51_histories :
  forall (G : Rng XRa) (dr : @driver XRa) fuel (ids : list N) (ss ss' : estimator_set XRa),
  foldM (run_history (G := G) dr fuel) ids ss = Ok ss' ->
  exists hs : list (list (particle XRa G)), Forall2 (history dr) ids hs /\ scored_set hs ss ss'.
Proof. exact C51_histories_proof. Qed.
Print Assumptions C51_histories.
Theorem C51_untouched :
  forall (A : Arith) (G : Rng A) (evs : list (particle A G)) (ss ss' : estimator_set A),
  neqb A (nofZ A 0) (nofZ A 0) = true ->
  run_events ss evs = Ok ss' ->
  Forall2 (fun e e' : estimator A => forall i,
    (forall p, In p evs -> in_bin (sc_bins (es_scorable e)) i p = true ->
       crossed (es_surface e) p = false) ->
    nth_error (sc_scores (es_scorable e')) i = nth_error (sc_scores (es_scorable e)) i
    /\ nth_error (sc_squares (es_scorable e')) i = nth_error (sc_squares (es_scorable e)) i)
    (ss_estimators ss) (ss_estimators ss').
Proof. exact C51_untouched_proof. Qed.
Print Assumptions C51_untouched.

Example C51_case :
  (exists u v, foldM (run_history (G := half_rng) slab_driver 2) [0; 1]%N (tallies 2 0 0 0 0)
               = Ok (tallies 2 (0 + 1 + 1) (0 + 1 + 1) u v))
  /\ neqb XRa (nofZ XRa 0) (nofZ XRa 0) = true
  /\ (forall L, neqb (F64 L) (nofZ (F64 L) 0) (nofZ (F64 L) 0) = true)
  /\ (* a birth scores nothing *)
     run_events (tallies 2 0 0 0 0) [set_perturbations [more] slab_start] = Ok (tallies 2 0 0 0 0)
  /\ crossed 0 slab_start = false.
Proof.
  destruct nudge_fin as (k & Ek & _). split; [|split; [|split; [|split]]].
  - do 2 eexists. cbn [foldM]. rewrite (slab_history k 0 2 0 0 0 0 0 Ek). cbn [bind].
    rewrite (slab_history k 0 2 _ _ _ _ 1 Ek). reflexivity.
  - apply Reqb_true. reflexivity.
  - reflexivity.
  - unfold run_events. cbn [foldM].
    replace (set_proxy_score _ _ _)
      with (Ok [([], [[]])] : outcome (list (est_proxy XRa))); [reflexivity|].
    unfold set_proxy_score, tallies. cbn [map ss_estimators combine mapM fst snd bind new_set_proxy].
    unfold est_proxy_score, sens_score. cbn [es_scorable es_surface es_sens new_proxy fst snd map
      combine mapM sn_surface sn_pert sn_scorable].
    assert (P : forall s, s = 0 -> proxy_score (A := XRa) one_bin (Fin s) []
                  (set_perturbations [more] slab_start) = Ok []).
    { intros s ->. unfold proxy_score. cbn. rewrite Reqb_true by auto. reflexivity. }
    change (current_score 0 (set_perturbations [more] slab_start)) with (Fin 0).
    change (get_indirect (set_perturbations [more] slab_start) 0) with (Ok (Fin 0 : num XRa)).
    cbn [bind]. change (nmul XRa (Fin 0) (Fin 0)) with (Fin (0 * 0)).
    change (sc_bins (tally ?n ?x ?y)) with one_bin. change (num XRa) with xr in *.
    rewrite !P by lra. reflexivity.
  - reflexivity.
Qed.

(** C52: the printed mean and standard deviation. The exact radicand is never
    negative; with rounding it can be, and the printed deviation is then NaN. *)
Theorem C52_radicand :
  forall xs : list R, xs <> [] ->
  0 <= Rsum (map (fun x => x * x) xs) - Rsum xs * Rsum xs / INR (length xs).
Proof. exact C52_radicand_proof. Qed.
Print Assumptions C52_radicand.
Theorem C52_statistics :
  forall (G : Rng XRa) (hs : list (list (particle XRa G))) (ss ss' : estimator_set XRa),
  blank_set ss -> hs <> [] -> ss_weight ss = Fin (INR (length hs)) ->
  run_all ss hs = Ok ss' ->
  Forall2 (fun e e' : estimator XRa =>
    (* estimators: the totals are numbers of crossings *)
    (forall i, (i < length (sc_scores (es_scorable e)))%nat ->
       printed (es_scorable e') (ss_weight ss') i
         (map (fun h => INR (length (filter (fun p => in_bin (sc_bins (es_scorable e)) i p
                                                     && crossed (es_surface e) p) h))) hs))
    (* sensitivities: the totals are sums of real indirect effects *)
    /\ Forall2 (fun sn sn' : sensitivity XRa => forall i xs, (i < length (sc_scores (sn_scorable sn)))%nat ->
         map (history_total (sc_bins (sn_scorable sn))
                (weighted_crossing (sn_surface sn) (sn_pert sn)) i) hs = map Fin xs ->
         printed (sn_scorable sn') (ss_weight ss') i xs) (es_sens e) (es_sens e'))
    (ss_estimators ss) (ss_estimators ss').
Proof. exact C52_statistics_proof. Qed.
Print Assumptions C52_statistics.
Theorem C52_asked :
  forall (A : Arith) (s : scorable A) (index : N) (w : num A),
  match nth_error (sc_means s w) (N.to_nat index) with
  | Some mean => sc_get_score s index w = Ok mean
  | None => sc_get_score s index w = Terminate
  end.
Proof. exact C52_asked_proof. Qed.
Print Assumptions C52_asked.
Theorem C52_binary64_refuted :
  forall L, exists (b : particle_bins (F64 L)) (x : num (F64 L)),
  (* one bin, three histories scoring one tenth each *)
  x = ndec (F64 L) 1 (-1)
  /\ exists s, foldM (fun s pd => sc_commit s pd) [[(0%N, x)]; [(0%N, x)]; [(0%N, x)]]
                     (new_scorable "" b) = Ok s
     /\ sc_stddevs s (nofZ (F64 L) 3) = [S754_nan].
Proof. exact C52_binary64_refuted_proof. Qed.
Print Assumptions C52_binary64_refuted.

(** Two histories of the sample problem: the totals are 1 and 1. *)
Example C52_case :
  sc_get_score (tally "through" 3 5) 0 (Fin 2) = Ok (Fin (3 / 2) : num XRa)
  /\ sc_get_score (tally "through" 3 5) 1 (Fin 2) = Terminate
  /\ blank_set (tallies 2 0 0 0 0)
  /\ exists hs : list (list (particle XRa half_rng)),
     length hs = 2%nat /\ ss_weight (tallies 2 0 0 0 0) = Fin (INR (length hs))
     /\ exists u v, run_all (tallies 2 0 0 0 0) hs = Ok (tallies 2 (0 + 1 + 1) (0 + 1 + 1) u v).
Proof.
  split; [cbn; now destruct (Reqb_spec 2 0); [lra|]|]. split; [reflexivity|]. split.
  - intros e [<-|[]]. split; [exists 1%nat; split; reflexivity|].
    intros sn [<-|[]]. exists 1%nat. split; reflexivity.
  - destruct nudge_fin as (k & Ek & _).
    pose proof (slab_history k 0 2 0 0 0 0 0 Ek) as H1.
    apply run_history_shown in H1 as (h1 & _ & H1).
    pose proof (slab_history k 0 2 (0 + 1) (0 + 1) (0 + effect k) (0 + effect k * effect k) 1 Ek) as H2.
    apply run_history_shown in H2 as (h2 & _ & H2).
    exists [h1; h2]. split; [reflexivity|]. split; [cbn; f_equal; lra|].
    do 2 eexists. unfold run_all. cbn [foldM]. rewrite H1. cbn [bind]. rewrite H2. reflexivity.
Qed.

(** C53 *)
Theorem C53_merge :
  forall (A : Arith) (a b r : estimator_set A),
  unique_names b -> set_add a b = Ok r ->
  ss_weight r = ss_weight a
  /\ Forall2 (fun e e' => exists o, In o (ss_estimators b) /\ es_name o = es_name e
                          /\ added_estimator e o e') (ss_estimators a) (ss_estimators r).
Proof. exact C53_merge_proof. Qed.
Print Assumptions C53_merge.
Theorem C53_error :
  forall (A : Arith) (a b : estimator_set A),
  unique_names b ->
  (forall e o, In e (ss_estimators a) -> In o (ss_estimators b) -> es_name o = es_name e ->
     matching e o) ->
  ((exists msg, set_add a b = Throw msg)
     <-> exists e, In e (ss_estimators a) /\ forall o, In o (ss_estimators b) -> es_name o <> es_name e)
  /\ ((exists r, set_add a b = Ok r)
     <-> forall e, In e (ss_estimators a) -> exists o, In o (ss_estimators b) /\ es_name o = es_name e).
Proof. exact C53_error_proof. Qed.
Print Assumptions C53_error.
Theorem C53_order :
  forall (A : Arith) (a b b' : estimator_set A),
  unique_names b -> Permutation (ss_estimators b) (ss_estimators b') ->
  set_add a b = set_add a b'.
Proof. exact C53_order_proof. Qed.
Print Assumptions C53_order.
Theorem C53_lookup :
  forall (A : Arith) (ss : estimator_set A) (name : string),
  (forall e, find_estimator ss name = Ok e ->
     exists before after, ss_estimators ss = (before ++ e :: after)%list /\ es_name e = name
       /\ forall e', In e' before -> es_name e' <> name)
  /\ ((exists e, In e (ss_estimators ss) /\ es_name e = name) ->
      exists e, find_estimator ss name = Ok e)
  /\ ((forall e, In e (ss_estimators ss) -> es_name e <> name) ->
      exists msg, find_estimator ss name = Throw msg).
Proof. exact C53_lookup_proof. Qed.
Print Assumptions C53_lookup.

Example C53_case :
  unique_names (tallies 2 1 1 3 4)
  /\ set_add (tallies 2 1 1 3 4) (tallies 2 5 6 7 8) = Ok (tallies 2 (1 + 5) (1 + 6) (3 + 7) (4 + 8))
  /\ matching (mkEst (tally "through" 1 1) 0 [mkSens (tally "through::more" 3 4) 0 0])
              (mkEst (tally "through" 5 6) 0 [mkSens (tally "through::more" 7 8) 0 0])
  /\ (exists msg, set_add (tallies 2 1 1 3 4) (mkEstSet (A := XRa) [] (Fin 2)) = Throw msg)
  /\ find_estimator (tallies 2 1 1 3 4) "through"
     = Ok (mkEst (tally "through" 1 1) 0 [mkSens (tally "through::more" 3 4) 0 0])
  /\ exists msg, find_estimator (tallies 2 1 1 3 4) "other" = Throw msg.
Proof.
  split; [|split; [|split; [|split; [|split]]]].
  - split; [repeat constructor; intros []|]. intros e [<-|[]]. repeat constructor; intros [].
  - reflexivity.
  - split; [split; reflexivity|]. intros sn [<-|[]]. split.
    + eexists. split; [now left|reflexivity].
    + intros so [<-|[]] _. split; reflexivity.
  - eexists. reflexivity.
  - reflexivity.
  - eexists. reflexivity.
Qed.

(** C54 *)
Theorem C54_created :
  forall (A : Arith) (X : Ext A) (w : world A) pts n e sn,
  estimator_create X w pts n = Ok e -> In sn (es_sens e) ->
  sc_bins (sn_scorable sn) = sc_bins (es_scorable e) /\ sn_surface sn = es_surface e
  /\ length (sc_scores (sn_scorable sn)) = length (sc_scores (es_scorable e))
  /\ exists pt, In pt pts /\ pt_id pt = sn_pert sn
     /\ sc_name (sn_scorable sn) = es_name e ++ "::" ++ pt_name pt.
Proof. exact C54_created_proof. Qed.
Print Assumptions C54_created.
Theorem C54_requested :
  forall (A : Arith) (X : Ext A) (w : world A) pts n e,
  estimator_create X w pts n = Ok e ->
  Forall2 (fun request sn => exists before pt after, pts = (before ++ pt :: after)%list
             /\ pt_name pt = as_string (n_attr request "name")
             /\ (forall pt', In pt' before -> pt_name pt' <> pt_name pt)
             /\ sn_pert sn = pt_id pt
             /\ sc_name (sn_scorable sn)
                = as_string (n_attr n "name") ++ "::" ++ as_string (n_attr request "name"))
    (n_children (n_child n "sensitivities")) (es_sens e).
Proof. exact C54_requested_proof. Qed.
Print Assumptions C54_requested.
Theorem C54_scores :
  forall (G : Rng XRa) (dr : @driver XRa) fuel (ss ss' : estimator_set XRa) h,
  run_history (G := G) dr fuel ss h = Ok ss' ->
  exists evs : list (particle XRa G), history dr h evs
    /\ Forall2 (fun e e' => Forall2 (fun sn sn' : sensitivity XRa => forall i x,
         nth_error (sc_scores (sn_scorable sn)) i = Some x ->
         nth_error (sc_scores (sn_scorable sn')) i
         = Some (xadd x (xsum (map (fun p => xmul (indirect_effect (sn_pert sn) p)
                                                  (crossing (sn_surface sn) p))
                                   (filter (in_bin (sc_bins (sn_scorable sn)) i) evs)))))
         (es_sens e) (es_sens e')) (ss_estimators ss) (ss_estimators ss').
Proof. exact C54_scores_proof. Qed.
Print Assumptions C54_scores.

Example C54_case :
  exists e sn, estimator_create slab_ext slab_world [more] (n_first_child tally_node) = Ok e
  /\ es_sens e = [sn] /\ sens_name sn = "through::more"
  /\ exists k, nudge (A := XRa) = Fin k
     /\ run_history (G := half_rng) slab_driver 2 (tallies 2 0 0 0 0) 5
        = Ok (tallies 2 (0 + 1) (0 + 1) (0 + (1 / 1 - (1 / 2 + k)))
                        (0 + (1 / 1 - (1 / 2 + k)) * (1 / 1 - (1 / 2 + k)))).
Proof.
  do 2 eexists. split; [reflexivity|]. split; [reflexivity|]. split; [reflexivity|].
  destruct nudge_fin as (k & Ek & _). exists k. split; auto.
  apply (slab_history k 0 2 0 0 0 0 5 Ek).
Qed.
