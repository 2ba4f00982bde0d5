(** Tallies: src/Scorable.cpp, src/Estimator.cpp, src/Sensitivity.cpp. *)
From Coq Require Import Bool String List ZArith NArith.
From Verif Require Import Model.Num Model.Outcome Model.Rng Model.Xml Model.Std Model.Point
  Model.Surface Model.Types Model.Bins Model.Field Model.Tables Model.Particle
  Model.Multigroup Model.Continuous Model.Material Model.World Model.Perturbation.
Import ListNotations.
Local Open Scope string_scope.
Local Open Scope bool_scope.
Local Open Scope num_scope.
Local Open Scope outcome_scope.

Section Types.
  Context (A : Arith).
  (** src/Scorable.hpp:66-80 *)
  Record scorable : Type := mkScorable {
    sc_name : string;
    sc_bins : particle_bins A;
    sc_scores : list (num A);
    sc_squares : list (num A)
  }.
  (** src/Sensitivity.hpp: the only concrete class. Its reference to the estimator
      is used for GetScore only, which depends on the estimator's surface. *)
  Record sensitivity : Type := mkSens {
    sn_scorable : scorable;
    sn_surface : nat;
    sn_pert : nat
  }.
  (** src/Estimator.hpp: CurrentEstimator. *)
  Record estimator : Type := mkEst {
    es_scorable : scorable;
    es_surface : nat;
    es_sens : list sensitivity
  }.
  (** src/Estimator.hpp:97-131 *)
  Record estimator_set : Type := mkEstSet {
    ss_estimators : list estimator;
    ss_weight : num A
  }.
  (** src/Scorable.hpp:82-86: pending_scores is a [std::map<size_t, Real>]. *)
  Definition pending : Type := list (N * num A).
  (** EstimatorProxy: own pending scores and those of each sensitivity proxy. *)
  Definition est_proxy : Type := (pending * list pending)%type.
End Types.
Arguments mkScorable {A}. Arguments sc_name {A}. Arguments sc_bins {A}.
Arguments sc_scores {A}. Arguments sc_squares {A}.
Arguments mkSens {A}. Arguments sn_scorable {A}. Arguments sn_surface {A}.
Arguments sn_pert {A}.
Arguments mkEst {A}. Arguments es_scorable {A}. Arguments es_surface {A}.
Arguments es_sens {A}.
Arguments mkEstSet {A}. Arguments ss_estimators {A}. Arguments ss_weight {A}.

Section Estimator.
  Context {A : Arith} {G : Rng A}.
  Notation particle := (particle A G).

  (** Scorable constructors, Scorable.cpp:17-28 *)
  Definition new_scorable (name : string) (b : particle_bins A) : scorable A :=
    let zeros := repeat (#0) (N.to_nat (pbins_size b)) in
    mkScorable name b zeros zeros.

  (** Scorable::GetScore, Scorable.cpp:32-35 *)
  Definition sc_get_score (s : scorable A) (index : N) (w : num A) : outcome (num A) :=
    noexcept (let! x := vec_at (sc_scores s) index in Ok (x / w)).

  (** Scorable::operator+=, Scorable.cpp:37-47 *)
  Definition sc_add (s o : scorable A) : outcome (scorable A) :=
    let! scores := add_onto (sc_scores s) (sc_scores o) in
    let! squares := add_onto (sc_squares s) (sc_squares o) in
    Ok (mkScorable (sc_name s) (sc_bins s) scores squares).

  (** The numbers printed by GetScoreAsString, Scorable.cpp:51-70: the means and
      the standard deviations (not their formatting). *)
  Definition sc_means (s : scorable A) (w : num A) : list (num A) :=
    map (fun x => x / w) (sc_scores s).
  Definition sc_stddevs (s : scorable A) (w : num A) : list (num A) :=
    map (fun xy => nsqrt A (snd xy - fst xy * fst xy / w) / w)
        (combine (sc_scores s) (sc_squares s)).

  (** CurrentEstimator::GetScore, Estimator.cpp:142-151 *)
  Definition current_score (surface : nat) (p : particle) : num A :=
    match p_surface p with
    | Some s =>
        if Nat.eqb s surface &&
           (event_eqb (p_event p) surface_cross || event_eqb (p_event p) leak)
        then #1 else #0
    | None => #0
    end.

  (** CurrentTotalCrossSectionSensitivity::GetScore, Sensitivity.cpp:55-58 *)
  Definition sens_score (sn : sensitivity A) (p : particle) : outcome (num A) :=
    let! i := get_indirect p (sn_pert sn) in
    Ok (i * current_score (sn_surface sn) p).

  (** [pending_scores]: add to an existing entry or insert, keys in order. *)
  Fixpoint pending_add (index : N) (score : num A) (l : pending A) : pending A :=
    match l with
    | [] => [(index, score)]
    | (i, x) :: t =>
        if (index <? i)%N then (index, score) :: l
        else if (i <? index)%N then (i, x) :: pending_add index score t
        else (i, x + score) :: t
    end.

  (** ScorableProxy::Score, Scorable.cpp:81-99, given the score. *)
  Definition proxy_score (b : particle_bins A) (score : num A) (pd : pending A) (p : particle)
      : outcome (pending A) :=
    if score =? #0 then Ok pd
    else
      let! index := pbins_index b (p_direction p) (p_energy p) in
      Ok (pending_add index score pd).

  (** EstimatorProxy::Score, Estimator.cpp:108-114; noexcept. *)
  Definition est_proxy_score (e : estimator A) (px : est_proxy A) (p : particle)
      : outcome (est_proxy A) :=
    noexcept
      (let! own := proxy_score (sc_bins (es_scorable e)) (current_score (es_surface e) p)
                               (fst px) p in
       let! subs := mapM (fun sp =>
                            let! score := sens_score (fst sp) p in
                            proxy_score (sc_bins (sn_scorable (fst sp))) score (snd sp) p)
                         (combine (es_sens e) (snd px)) in
       Ok (own, subs)).

  (** EstimatorSet::GetProxy and the proxy constructors, Estimator.cpp:97-106,
      183-185, 237-245 *)
  Definition new_proxy (e : estimator A) : est_proxy A := ([], map (fun _ => []) (es_sens e)).
  Definition new_set_proxy (ss : estimator_set A) : list (est_proxy A) :=
    map new_proxy (ss_estimators ss).

  (** EstimatorSetProxy::Score, Estimator.cpp:247-251 *)
  Definition set_proxy_score (ss : estimator_set A) (pxs : list (est_proxy A)) (p : particle)
      : outcome (list (est_proxy A)) :=
    mapM (fun x => est_proxy_score (fst x) (snd x) p) (combine (ss_estimators ss) pxs).

  (** [v[i] += x]: unchecked access. *)
  Fixpoint add_at (i : nat) (x : num A) (l : list (num A)) : outcome (list (num A)) :=
    match l, i with
    | [], _ => UB
    | y :: t, O => Ok (y + x :: t)
    | y :: t, S i' => let! r := add_at i' x t in Ok (y :: r)
    end.
  Definition add_at_N (i : N) (x : num A) (l : list (num A)) : outcome (list (num A)) :=
    if (i <? N.of_nat (length l))%N then add_at (N.to_nat i) x l else UB.

  (** ScorableProxy::CommitHistory, Scorable.cpp:101-106 *)
  Definition sc_commit (s : scorable A) (pd : pending A) : outcome (scorable A) :=
    foldM (fun s ix =>
             let! scores := add_at_N (fst ix) (snd ix) (sc_scores s) in
             let! squares := add_at_N (fst ix) (snd ix * snd ix) (sc_squares s) in
             Ok (mkScorable (sc_name s) (sc_bins s) scores squares)) pd s.

  (** EstimatorProxy::CommitHistory, Estimator.cpp:116-122 *)
  Definition est_commit (e : estimator A) (px : est_proxy A) : outcome (estimator A) :=
    let! own := sc_commit (es_scorable e) (fst px) in
    let! sens := mapM (fun sp =>
                         let! s := sc_commit (sn_scorable (fst sp)) (snd sp) in
                         Ok (mkSens s (sn_surface (fst sp)) (sn_pert (fst sp))))
                      (combine (es_sens e) (snd px)) in
    Ok (mkEst own (es_surface e) sens).

  (** EstimatorSetProxy::CommitHistory, Estimator.cpp:253-257 *)
  Definition set_commit (ss : estimator_set A) (pxs : list (est_proxy A))
      : outcome (estimator_set A) :=
    let! es := mapM (fun x => est_commit (fst x) (snd x)) (combine (ss_estimators ss) pxs) in
    Ok (mkEstSet es (ss_weight ss)).

  (** Estimator::operator+=, Estimator.cpp:59-72: an unmatched sensitivity
      dereferences end(). *)
  Definition est_add (e o : estimator A) : outcome (estimator A) :=
    let! own := sc_add (es_scorable e) (es_scorable o) in
    let! sens := mapM (fun sn =>
                         match find (fun so => String.eqb (sc_name (sn_scorable sn))
                                                          (sc_name (sn_scorable so)))
                                    (es_sens o) with
                         | None => UB
                         | Some so =>
                             let! s := sc_add (sn_scorable sn) (sn_scorable so) in
                             Ok (mkSens s (sn_surface sn) (sn_pert sn))
                         end) (es_sens e) in
    Ok (mkEst own (es_surface e) sens).

  (** EstimatorSet::operator+=, Estimator.cpp:215-231 *)
  Definition es_name (e : estimator A) : string := sc_name (es_scorable e).
  Definition set_add (ss so : estimator_set A) : outcome (estimator_set A) :=
    let! es := mapM (fun e =>
                       match find (fun o => String.eqb (es_name e) (es_name o))
                                  (ss_estimators so) with
                       | None => Throw ("Estimator not found: " ++ es_name e)
                       | Some o => est_add e o
                       end) (ss_estimators ss) in
    Ok (mkEstSet es (ss_weight ss)).

  (** FindEstimatorByName, Estimator.cpp:187-205 *)
  Definition find_estimator (ss : estimator_set A) (name : string) : outcome (estimator A) :=
    match find (fun e => String.eqb (es_name e) name) (ss_estimators ss) with
    | Some e => Ok e
    | None => Throw ("Estimator " ++ quoted name ++ " notfound. Must be one of: [" ++
                     quote_strings (map es_name (ss_estimators ss)) ++ "]")
    end.

  (** Sensitivity::Create, Sensitivity.cpp:13-21, and
      TotalCrossSectionPerturbation::CreateSensitivity, Perturbation.cpp:52-66 *)
  Definition sensitivity_create (pts : list (perturbation A)) (est : scorable A)
      (surface : nat) (n : node) : outcome (sensitivity A) :=
    let! pt := find_perturbation pts (as_string (n_attr n "name")) in
    let estimator_node := n_parent (n_parent n) in
    if String.eqb (n_name estimator_node) "current" then
      Ok (mkSens (new_scorable (sc_name est ++ "::" ++ pt_name pt) (sc_bins est))
                 surface (pt_id pt))
    else Throw ("Sensitivity to total cross section perturbation not supported for estimator: "
                ++ n_path estimator_node).

  (** Estimator::Create, Estimator.cpp:21-33, with the constructors 76-91 (noexcept)
      and 128-133. The base class is built before the surface is looked up; the
      sensitivities are given the surface afterwards. *)
  Definition estimator_create (X : Ext A) (w : world A) (pts : list (perturbation A))
      (n : node) : outcome (estimator A) :=
    if String.eqb (n_name n) "current" then
      let! base := noexcept
        (let! b := pbins_create X (n_child n "bins") in
         let est := new_scorable (as_string (n_attr n "name")) b in
         let! sens := mapM (sensitivity_create pts est 0)
                           (n_children (n_child n "sensitivities")) in
         Ok (est, sens)) in
      let (est, sens) := (base : scorable A * list (sensitivity A)) in
      let! s := find_surface w (as_string (n_attr n "surface")) in
      Ok (mkEst est (su_id s)
            (map (fun sn => mkSens (sn_scorable sn) (su_id s) (sn_pert sn)) sens))
    else UB.

  (** EstimatorSet constructor, Estimator.cpp:157-170 *)
  Definition estimator_set_create (X : Ext A) (w : world A) (pts : list (perturbation A))
      (weight : num A) (n : node) : outcome (estimator_set A) :=
    let! es := mapM (estimator_create X w pts) (n_children n) in
    Ok (mkEstSet es weight).
End Estimator.
