(** Counts of crossings, and arithmetics that count exactly. *)
From Coq Require Import Bool String List ZArith NArith.
From Verif Require Import Model.Num Model.Rng Model.Types Model.Particle Model.Bins Model.Estimator
  Spec.EstimatorSpec.
Import ListNotations.
Local Open Scope Z_scope.

(** Natural numbers up to [limit] are added and squared exactly, and 0 and 1 are told
    apart. *)
Record counts_exactly (A : Arith) (limit : Z) : Prop := mkCounts {
  counts_zero : neqb A (nofZ A 0) (nofZ A 0) = true;
  counts_one : neqb A (nofZ A 1) (nofZ A 0) = false;
  counts_add : forall a b, 0 <= a -> 0 <= b -> a + b <= limit ->
    nadd A (nofZ A a) (nofZ A b) = nofZ A (a + b);
  counts_square : forall a, 0 <= a -> a * a <= limit ->
    nmul A (nofZ A a) (nofZ A a) = nofZ A (a * a)
}.

Definition Zsum (l : list Z) : Z := fold_right Z.add 0 l.

Section Counts.
  Context {A : Arith} {G : Rng A}.
  Notation particle := (particle A G).

  Definition howmany (f : particle -> bool) (evs : list particle) : Z :=
    Z.of_nat (length (filter f evs)).
  (** The crossings of a surface in a history, in all and in one bin. *)
  Definition crossings (surface : nat) (evs : list particle) : Z := howmany (crossed surface) evs.
  Definition bin_crossings (b : particle_bins A) (surface i : nat) (evs : list particle) : Z :=
    howmany (fun p => in_bin b i p && crossed surface p) evs.

  (** No surface is crossed so often that the squares of the numbers of crossings,
      summed over the histories, exceed [limit]. *)
  Definition few_crossings (limit : Z) (hs : list (list particle)) : Prop :=
    forall surface, Zsum (map (fun h => crossings surface h * crossings surface h) hs) <= limit.

  (** [s'] has the bins of [s] and holds, in every bin, the number of crossings in the
      histories [hs] and the sum of the squares of the numbers of the histories. *)
  Record counted (surface : nat) (hs : list (list particle)) (s s' : scorable A) : Prop :=
    mkCounted {
      counted_name : sc_name s' = sc_name s;
      counted_bins : sc_bins s' = sc_bins s;
      counted_size : length (sc_scores s') = length (sc_scores s);
      counted_size2 : length (sc_squares s') = length (sc_squares s);
      counted_scores : forall i, (i < length (sc_scores s))%nat ->
        nth_error (sc_scores s') i
        = Some (nofZ A (Zsum (map (bin_crossings (sc_bins s) surface i) hs)));
      counted_squares : forall i, (i < length (sc_squares s))%nat ->
        nth_error (sc_squares s') i
        = Some (nofZ A (Zsum (map (fun h => bin_crossings (sc_bins s) surface i h
                                            * bin_crossings (sc_bins s) surface i h) hs)))
    }.
  Record counted_estimator (hs : list (list particle)) (e e' : estimator A) : Prop :=
    mkCountedEst {
      cest_surface : es_surface e' = es_surface e;
      cest_scores : counted (es_surface e) hs (es_scorable e) (es_scorable e')
    }.
  Definition counted_set (hs : list (list particle)) (ss ss' : estimator_set A) : Prop :=
    ss_weight ss' = ss_weight ss
    /\ Forall2 (counted_estimator hs) (ss_estimators ss) (ss_estimators ss').
End Counts.
