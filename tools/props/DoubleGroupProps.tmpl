(** Property C90: multigroup collisions in double precision. *)
From Coq Require Import Bool String List Reals ZArith NArith SpecFloat.
From Verif Require Import Model.Num Model.Outcome Model.Rng Model.Xml Model.Std Model.Point
  Model.Types Model.Particle Model.Multigroup
  Spec.SumSpec Spec.RngSpec Spec.DoubleSpec Spec.MultigroupSpec Spec.DoubleGroupSpec
  Proofs.SampleDouble Proofs.SampleGroups Proofs.DoubleGroups.
Import ListNotations.
Local Open Scope R_scope.

(** C90: with the program's generator and binary64 arithmetic, a collision always has an
    outcome, a reaction without cross section never happens, and a reaction happens for
    the random numbers of its share of the exact total, up to one part in 2^34. *)
@@C90_reaction
(** A scattered neutron always gets a group of positive probability; the random numbers of
    a group are those of its share of the exact column, up to one part in 2^34. *)
@@C90_scatter
(** A fission emits the average yield rounded down or up, and every one of the neutrons gets
    a group of positive probability. A column of zeros in the spectrum loses them all. *)
@@C90_fission

(** Data with rounded entries, and a collision of each kind with it. *)
Example C90_case : sensible_doubles fuel_ext fuel_node
  /\ groups (written_groups fuel_ext fuel_node) = [1; 2]%N
  /\ (powerRZ 2 (-900) <= sigma64 fuel_ext fuel_node Rcapture 1 + sigma64 fuel_ext fuel_node Rscatter 1
                      + sigma64 fuel_ext fuel_node Rfission 1
      /\ 0 < column_sum64 fuel_ext fuel_node (chi_node fuel_node) 1)
  /\ exists m, multigroup_create fuel_ext fuel_node = Ok m
  /\ (exists p q : particle D64 (Minstd D64), p_energy p = Group 1 /\ mg_interact m p = Ok q /\ p_event q = capture)
  /\ (exists p q : particle D64 (Minstd D64), p_energy p = Group 1 /\ mg_interact m p = Ok q /\ p_event q = scatter)
  /\ (exists p q : particle D64 (Minstd D64), p_energy p = Group 1 /\ mg_interact m p = Ok q
        /\ p_event q = fission /\ p_secondaries p = [] /\ length (p_secondaries q) = 3%nat).
Proof. exact (conj fuel_sensible (conj fuel_groups (conj fuel_heavy fuel_collisions))). Qed.
