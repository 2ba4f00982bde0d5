(** What a bin structure means: a value's bin is the number of boundaries that do
    not exceed it. *)
From Coq Require Import List Reals NArith.
From Verif Require Import Model.Num.
Import ListNotations.
Local Open Scope R_scope.

(** How many of the boundaries [f 0, ..., f (m-1)] are [<= v]. *)
Fixpoint count_le (f : nat -> R) (m : nat) (v : R) : nat :=
  match m with
  | O => O
  | S m' => (count_le f m' v + if Rle_dec (f m') v then 1 else 0)%nat
  end.

(** Boundary [i] of [n] equal bins on [lo, hi). *)
Definition lin_boundary (lo hi : R) (n : N) (i : nat) : R :=
  lo + INR i * ((hi - lo) / INR (N.to_nat n)).

(** Boundary [i] of [n] bins equal in the logarithm to base [base]. *)
Definition log_boundary (base lo hi : R) (n : N) (i : nat) : R :=
  Rpower base (lin_boundary lo hi n i).

(** Strictly increasing lists. *)
Fixpoint increasing (l : list R) : Prop :=
  match l with
  | [] => True
  | a :: t => match t with [] => True | b :: _ => a < b end /\ increasing t
  end.

From Coq Require Import String.
From Verif Require Import Model.Outcome Model.Bins.

(** Bin structures over the reals as the constructors make them from sensible
    input: at least one bin, few enough bins for a 64-bit size, a base above one. *)
Inductive proper_bins : bins XRa -> Prop :=
  | proper_none : proper_bins NoBins
  | proper_linspace path n lo hi b :
      lo < hi -> (1 <= n)%N -> (n + 2 < 2 ^ 64)%N ->
      make_linspace (A := XRa) path n (Fin lo) (Fin hi) = Ok b -> proper_bins b
  | proper_logspace path n base lo hi b :
      1 < base -> lo < hi -> (1 <= n)%N -> (n + 2 < 2 ^ 64)%N ->
      make_logspace (A := XRa) path n (Fin base) (Fin lo) (Fin hi) = Ok b -> proper_bins b
  | proper_boundaries show path l b :
      make_boundaries (A := XRa) show path (map Fin l) = Ok b -> proper_bins b.

(** Values a structure is meant for: logarithmic bins take positive numbers. *)
Definition in_domain (b : bins XRa) (v : R) : Prop :=
  match b with LogspaceBins _ _ _ _ _ => 0 < v | _ => True end.

From Verif Require Import Model.Types Model.Point Spec.Vec.

(** A particle energy is a real number or a group. *)
Definition energy_value (en : energy XRa) (v : R) : Prop :=
  match en with
  | ContinuousE x => x = Fin v
  | Group g => v = INR (N.to_nat g)
  end.

(** The cosine bin and the energy bin of a particle, one structure at a time. *)
Definition cosine_bin (pb : particle_bins XRa) (dir : vec) (c : N) : Prop :=
  match pb_direction pb with
  | None => c = 0%N
  | Some d => exists dv, d = pt dv /\ in_domain (pb_cosine pb) (dot dv dir)
                         /\ bins_index (pb_cosine pb) (Fin (dot dv dir)) = Ok c
  end.
Definition energy_bin (pb : particle_bins XRa) (en : energy XRa) (e : N) : Prop :=
  exists v, energy_value en v /\ in_domain (pb_energy pb) v
            /\ bins_index (pb_energy pb) (Fin v) = Ok e.
