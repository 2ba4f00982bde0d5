(** What estimators and their sensitivities hold after some histories. A history is
    given by its events: the states of its particles after each event. *)
From Coq Require Import Bool String List Reals ZArith NArith Permutation.
From Verif Require Import Model.Num Model.Outcome Model.Rng Model.Types Model.Particle Model.Bins
  Model.Perturbation Model.Estimator Spec.SumSpec.
Import ListNotations.

Section Any.
  Context {A : Arith} {G : Rng A}.
  Notation particle := (particle A G).

  (** A particle crosses surface number [surface] in its last event. *)
  Definition crossed (surface : nat) (p : particle) : bool :=
    match p_surface p, p_event p with
    | Some s, (surface_cross | leak) => Nat.eqb s surface
    | _, _ => false
    end.

  (** The bin of a particle. *)
  Definition in_bin (b : particle_bins A) (i : nat) (p : particle) : bool :=
    match pbins_index b (p_direction p) (p_energy p) with
    | Ok j => N.eqb j (N.of_nat i)
    | _ => false
    end.

  (** Some histories given to an estimator set: a proxy for each, every event scored
      by the proxy, and the proxy committed. *)
  Definition run_events (ss : estimator_set A) (evs : list particle)
      : outcome (estimator_set A) :=
    bind (foldM (set_proxy_score ss) evs (new_set_proxy ss)) (set_commit ss).
  Definition run_all (ss : estimator_set A) (hs : list (list particle))
      : outcome (estimator_set A) :=
    foldM run_events hs ss.

  (** [r] is [s] with [o] added bin by bin. *)
  Record added (s o r : scorable A) : Prop := mkAdded {
    added_name : sc_name r = sc_name s;
    added_bins : sc_bins r = sc_bins s;
    added_size : length (sc_scores r) = length (sc_scores s);
    added_size2 : length (sc_squares r) = length (sc_squares s);
    added_scores : forall i x y, nth_error (sc_scores s) i = Some x ->
      nth_error (sc_scores o) i = Some y -> nth_error (sc_scores r) i = Some (nadd A x y);
    added_squares : forall i x y, nth_error (sc_squares s) i = Some x ->
      nth_error (sc_squares o) i = Some y -> nth_error (sc_squares r) i = Some (nadd A x y)
  }.
  Definition sens_name (sn : sensitivity A) : string := sc_name (sn_scorable sn).
  Record added_sensitivity (sn so r : sensitivity A) : Prop := mkAddedSens {
    asens_surface : sn_surface r = sn_surface sn;
    asens_pert : sn_pert r = sn_pert sn;
    asens_scores : added (sn_scorable sn) (sn_scorable so) (sn_scorable r)
  }.
  Record added_estimator (e o r : estimator A) : Prop := mkAddedEst {
    aest_surface : es_surface r = es_surface e;
    aest_scores : added (es_scorable e) (es_scorable o) (es_scorable r);
    aest_sens : Forall2 (fun sn r => forall so, In so (es_sens o) -> sens_name so = sens_name sn ->
                           added_sensitivity sn so r) (es_sens e) (es_sens r)
  }.

  (** Scores that can be added: as many bins, and a partner for every sensitivity. *)
  Definition same_bins (s o : scorable A) : Prop :=
    length (sc_scores o) = length (sc_scores s) /\ length (sc_squares o) = length (sc_squares s).
  Definition matching (e o : estimator A) : Prop :=
    same_bins (es_scorable e) (es_scorable o)
    /\ forall sn, In sn (es_sens e) ->
       (exists so, In so (es_sens o) /\ sens_name so = sens_name sn)
       /\ forall so, In so (es_sens o) -> sens_name so = sens_name sn ->
          same_bins (sn_scorable sn) (sn_scorable so).
  Definition unique_names (ss : estimator_set A) : Prop :=
    NoDup (map es_name (ss_estimators ss))
    /\ forall e, In e (ss_estimators ss) -> NoDup (map sens_name (es_sens e)).
End Any.

Section Exact.
  Context {G : Rng XRa}.
  Notation particle := (particle XRa G).

  (** Sums in the extended reals, where the order does not matter. *)
  Definition xsum (l : list xr) : xr := fold_right xadd (Fin 0) l.

  (** What a crossing is worth to an estimator, and to a sensitivity of it. *)
  Definition crossing (surface : nat) (p : particle) : xr :=
    if crossed surface p then Fin 1 else Fin 0.
  Definition indirect_effect (pert : nat) (p : particle) : xr :=
    match find (fun x => Nat.eqb (pt_id (fst x)) pert) (p_indirect p) with
    | Some x => snd x
    | None => NaN
    end.
  Definition weighted_crossing (surface pert : nat) (p : particle) : xr :=
    xmul (indirect_effect pert p) (crossing surface p).

  (** The total score of a history in one bin. *)
  Definition history_total (b : particle_bins XRa) (score : particle -> xr) (i : nat)
      (evs : list particle) : xr :=
    xsum (map score (filter (in_bin b i) evs)).

  (** [s'] is [s] after the histories [hs]: in every bin the totals of the histories
      have been added to the scores and their squares to the squares. *)
  Record scored (score : particle -> xr) (hs : list (list particle)) (s s' : scorable XRa)
      : Prop := mkScored {
    scored_name : sc_name s' = sc_name s;
    scored_bins : sc_bins s' = sc_bins s;
    scored_size : length (sc_scores s') = length (sc_scores s);
    scored_size2 : length (sc_squares s') = length (sc_squares s);
    scored_sum : forall i x, nth_error (sc_scores s) i = Some x ->
      nth_error (sc_scores s') i
      = Some (xadd x (xsum (map (history_total (sc_bins s) score i) hs)));
    scored_squares : forall i x, nth_error (sc_squares s) i = Some x ->
      nth_error (sc_squares s') i
      = Some (xadd x (xsum (map (fun h => xmul (history_total (sc_bins s) score i h)
                                               (history_total (sc_bins s) score i h)) hs)))
  }.

  Record scored_sensitivity (hs : list (list particle)) (sn sn' : sensitivity XRa) : Prop :=
    mkScoredSens {
      ssens_surface : sn_surface sn' = sn_surface sn;
      ssens_pert : sn_pert sn' = sn_pert sn;
      ssens_scores : scored (weighted_crossing (sn_surface sn) (sn_pert sn)) hs
                            (sn_scorable sn) (sn_scorable sn')
    }.
  Record scored_estimator (hs : list (list particle)) (e e' : estimator XRa) : Prop :=
    mkScoredEst {
      sest_surface : es_surface e' = es_surface e;
      sest_scores : scored (crossing (es_surface e)) hs (es_scorable e) (es_scorable e');
      sest_sens : Forall2 (scored_sensitivity hs) (es_sens e) (es_sens e')
    }.
  Record scored_set (hs : list (list particle)) (ss ss' : estimator_set XRa) : Prop :=
    mkScoredSet {
      sset_weight : ss_weight ss' = ss_weight ss;
      sset_estimators : Forall2 (scored_estimator hs) (ss_estimators ss) (ss_estimators ss')
    }.
End Exact.

(** ** Statistics *)
Local Open Scope R_scope.
Definition mean (xs : list R) : R := Rsum xs / INR (length xs).
(** The population variance. *)
Definition variance (xs : list R) : R :=
  Rsum (map (fun x => (x - mean xs) * (x - mean xs)) xs) / INR (length xs).

(** The mean and the deviation printed for bin [i] of [s] are those of the histories'
    totals [xs]. *)
Definition printed (s : scorable XRa) (weight : xr) (i : nat) (xs : list R) : Prop :=
  nth_error (sc_means s weight) i = Some (Fin (mean xs))
  /\ nth_error (sc_stddevs s weight) i
     = Some (Fin (sqrt (variance xs) / sqrt (INR (length xs)))).

(** A scorable that has not been given any history. *)
Definition blank {A : Arith} (s : scorable A) : Prop :=
  exists n, sc_scores s = repeat (nofZ A 0) n /\ sc_squares s = repeat (nofZ A 0) n.
Definition blank_set {A : Arith} (ss : estimator_set A) : Prop :=
  forall e, In e (ss_estimators ss) ->
  blank (es_scorable e) /\ forall sn, In sn (es_sens e) -> blank (sn_scorable sn).
