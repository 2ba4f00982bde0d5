(** Property C89: what can stop a run. *)
From Coq Require Import Bool String List Reals ZArith NArith SpecFloat.
From Verif Require Import Model.Num Model.Outcome Model.Rng Model.Xml Model.Std Model.Point
  Model.Surface Model.Types Model.Bins Model.Field Model.Particle Model.Multigroup
  Model.Continuous Model.Material Model.World Model.Perturbation Model.Estimator Model.Transport
  Model.Driver
  Spec.RngSpec Spec.CellSpec Spec.TransportSpec Spec.DoubleSpec Spec.TroubleSpec
  Proofs.SampleDouble Proofs.SampleTrouble Proofs.TroubleProofs.
Import ListNotations.

(** C89: in double precision, and in exact arithmetic, for data by group and by energy
    (without thermal scattering tables), every schedule and number of threads: when a
    thread is stopped there is a history in which a particle gets into a hole of the
    geometry or begins in a void, collides where the total cross section or the number of
    neutrons per fission is not a proper number, or has no bin in an estimator.
    [OutOfFuel] stands for histories that have not ended within the modelled number of
    steps. *)
Theorem C89_double :
  forall (L : Libm) (k : kind) (dr : driver (A := F64 L)) (fuel : nat) (counter : N) (schedule : list nat) o,
  tabulated k dr ->
  stopped (run_schedule (G := Minstd (F64 L)) dr fuel (solver_start dr counter) schedule) o ->
  o = OutOfFuel
  \/ exists i, (i < dr_batchsize dr)%N /\
     let p := history_start (G := Minstd (F64 L)) dr i in
     astray dr p \/ no_number dr p usable_double countable_double \/ no_bin dr p.
Proof. exact C89_double_proof. Qed.
Print Assumptions C89_double.
Theorem C89_exact :
  forall (G : Rng XRa) (k : kind) (dr : driver (A := XRa)) (fuel : nat) (counter : N) (schedule : list nat) o,
  valid_rng G -> tabulated k dr ->
  stopped (run_schedule (G := G) dr fuel (solver_start dr counter) schedule) o ->
  o = OutOfFuel
  \/ exists i, (i < dr_batchsize dr)%N /\
     let p := history_start (G := G) dr i in
     astray dr p \/ no_number dr p usable_real countable_real \/ no_bin dr p.
Proof. exact C89_exact_proof. Qed.
Print Assumptions C89_exact.

(** A problem read from a document with nothing beyond its surface, and a fissile slab with
    a negative number of neutrons per fission: both are stopped. *)
Example C89_case : exists dr, hole_driver = Ok dr /\ tabulated (Groups 1) dr
  /\ exists o, stopped (double_run dr alternate) o /\ o <> OutOfFuel.
Proof. exact hole_stops. Qed.
Example C89_other : tabulated Pointwise odd_driver
  /\ exists o, stopped (double_run odd_driver alternate) o /\ o <> OutOfFuel.
Proof. exact odd_stops. Qed.
