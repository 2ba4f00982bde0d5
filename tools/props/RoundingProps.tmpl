(** Properties C79-C81: bins, random numbers and printed statistics in binary64. *)
From Coq Require Import Bool String List ZArith NArith Reals Lra Lia SpecFloat.
From Verif Require Import Model.Num Model.Outcome Model.Xml Model.Std Model.Rng Model.Point Model.Types
  Model.Bins Model.Particle Model.Estimator Model.Transport Model.Driver
  Spec.TextExt Spec.DoubleSpec Spec.BinsSpec Spec.EstimatorSpec Spec.CountSpec
  Spec.HistorySpec Spec.SolverSpec Proofs.DoubleBins Proofs.DoubleRandom Proofs.DoubleStats Proofs.DoubleRun Proofs.RngProofs
  Proofs.SampleDouble Proofs.IdealLibm.
Import ListNotations.
Local Open Scope string_scope.
Local Open Scope R_scope.

(** C79: in doubles, a linspace or logspace element with up to 2^48 bins, whose width is
    not subnormal and whose span does not overflow, sorts every value that is not NaN
    into one of its bins: values below the lower bound, and only these, into the first,
    values of at least the upper bound into the last, greater values never into lower
    bins, and every finite value at most one bin from where exact arithmetic sorts it.
    Rounding can put a value below the upper bound into the overflow bin; a subnormal
    width can put it outside the array; an overflowing span or a NaN is undefined. *)
@@C79_linspace
@@C79_logspace
@@C79_overflow_bin_refuted
@@C79_outside_refuted
@@C79_undefined_refuted
@@C79_not_a_number

Example C79_case :
  let X := text_ext D64 [] in
  let linear := lone (leaf "linspace" [("bins", "4"); ("min", "-1"); ("max", "1.5")]) in
  let decades := lone (leaf "logspace" [("bins", "10"); ("min", "-3"); ("max", "7")]) in
  (exists lo hi,
     n_name linear = "linspace" /\ as_ullong X (n_attr linear "bins") = 4%N
     /\ as_double X (n_attr linear "min") = lo /\ as_double X (n_attr linear "max") = hi
     /\ is_double lo /\ is_double hi /\ finite lo /\ finite hi
     /\ powerRZ 2 (-1021) <= (value hi - value lo) / IZR (Z.of_N 4)
     /\ value hi - value lo <= powerRZ 2 1023)
  /\ (exists lo hi base v,
     n_name decades = "logspace" /\ as_ullong X (n_attr decades "bins") = 10%N
     /\ as_double_def X (n_attr decades "base") (f64_ofZ 10) = base
     /\ as_double X (n_attr decades "min") = lo /\ as_double X (n_attr decades "max") = hi
     /\ is_double lo /\ is_double hi /\ finite lo /\ finite hi
     /\ powerRZ 2 (-1021) <= (value hi - value lo) / IZR (Z.of_N 10)
     /\ value hi - value lo <= powerRZ 2 1023
     /\ let e := SFdiv prec64 emax64 (l_log sample_libm v) (l_log sample_libm base) in
        is_double e /\ e <> S754_nan /\ SFltb lo e = true /\ SFltb e hi = true).
Proof.
  assert (S : powerRZ 2 (-1021) <= / 2).
  { change (powerRZ 2 (-1021)) with (/ 2 ^ Pos.to_nat 1021).
    apply Rinv_le_contravar; [lra|]. rewrite <- (pow_1 2) at 1. apply Rle_pow; [lra|].
    apply Pos2Nat.is_pos. }
  assert (B : 16 <= powerRZ 2 1023).
  { change (powerRZ 2 1023) with (2 ^ Pos.to_nat 1023). replace 16 with (2 ^ 4) by ring.
    apply Rle_pow; [lra|]. change 4%nat with (Pos.to_nat 4). apply Pos2Nat.inj_le. lia. }
  assert (V : value (f64_ofZ (-1)) = -1 /\ value (f64_dec 15 (-1)) = 3 / 2
    /\ value (f64_ofZ (-3)) = -3 /\ value (f64_ofZ 7) = 7).
  { set (a := f64_ofZ (-1)). set (b := f64_dec 15 (-1)). set (c := f64_ofZ (-3)).
    set (d := f64_ofZ 7). vm_compute in a, b, c, d. subst a b c d. unfold value. simpl.
    repeat split; lra. }
  destruct V as (V1 & V2 & V3 & V4). cbv zeta. split.
  - exists (f64_ofZ (-1)), (f64_dec 15 (-1)).
    split; [reflexivity|]. split; [reflexivity|].
    split; [vm_compute; reflexivity|]. split; [vm_compute; reflexivity|].
    split; [vm_compute; reflexivity|]. split; [vm_compute; reflexivity|].
    split; [vm_compute; exact I|]. split; [vm_compute; exact I|].
    rewrite V1, V2. simpl IZR. lra.
  - exists (f64_ofZ (-3)), (f64_ofZ 7), (f64_ofZ 10), (f64_ofZ 10).
    split; [reflexivity|]. split; [reflexivity|]. split; [vm_compute; reflexivity|].
    split; [vm_compute; reflexivity|]. split; [vm_compute; reflexivity|].
    split; [vm_compute; reflexivity|]. split; [vm_compute; reflexivity|].
    split; [vm_compute; exact I|]. split; [vm_compute; exact I|].
    rewrite V3, V4. simpl IZR. split; [lra|]. split; [lra|].
    split; [vm_compute; reflexivity|]. split; [vm_compute; discriminate|].
    split; vm_compute; reflexivity.
Qed.

(** C80: in doubles, a uniform number is never closer to zero or one than 2^-32 and never
    further than 2^-51 from the number that exact arithmetic gives for the same state. So
    the logarithm behind a flight length is never that of zero: the length is never NaN or
    negative, and for cross sections from 2^-900 to 2^900 it is finite and between 2^-34
    and 24 mean free paths. An isotropic direction has finite components at most one in
    size and unit length up to rounding. *)
@@C80_uniform
@@C80_close
@@C80_flight_exact
@@C80_flight
@@C80_isotropic

Example C80_case :
  log_accurate ideal_libm /\ bounded_turn ideal_libm (4 * powerRZ 2 (-53))
  /\ (forall s : mstate, exists r, fst (runif (Minstd XRa) s) = Fin r)
  /\ is_double (f64_ofZ 1) /\ finite (f64_ofZ 1)
  /\ powerRZ 2 (-900) <= value (f64_ofZ 1) <= powerRZ 2 900.
Proof.
  split; [exact ideal_log|]. split; [exact ideal_turn|].
  split; [intros s; destruct (minstd_open s) as (u & E & _); now exists u|].
  split; [vm_compute; reflexivity|]. split; [vm_compute; exact I|].
  assert (V : value (f64_ofZ 1) = 1).
  { set (a := f64_ofZ 1). vm_compute in a. subst a. unfold value. simpl. lra. }
  rewrite V. split.
  - change (powerRZ 2 (-900)) with (/ 2 ^ Pos.to_nat 900). rewrite <- Rinv_1.
    apply Rinv_le_contravar; [lra|]. apply pow_R1_Rle. lra.
  - change (powerRZ 2 900) with (2 ^ Pos.to_nat 900). apply pow_R1_Rle. lra.
Qed.

(** C81: the mean and standard deviation printed for a bin, in doubles. While the square of
    the number of crossings is at most 2^53 both are finite, the deviation is not
    negative, the mean is the exact one up to one rounding, and the deviation the exact
    one up to 2^-24 of the root of the sum of squares over the number of histories. With
    more crossings the radicand can be negative: 379625063 histories that cross a surface
    once each print NaN instead of zero. *)
@@C81_statistics
@@C81_run
@@C81_nan_refuted

Example C81_case :
  (exists (hs : list (list (particle D64 (Minstd D64)))) b s',
     map (bin_crossings b 0 0) hs = [1; 2; 0]%Z
     /\ length (sc_scores (new_scorable (A := D64) "" b)) = 1%nat
     /\ length (sc_squares (new_scorable (A := D64) "" b)) = 1%nat
     /\ counted 0 hs (new_scorable "" b) s')
  /\ exists (dr : @driver D64) hs, double_driver = Ok dr
     /\ (dr_batchsize dr + dr_threads dr <= 2 ^ 64)%N /\ (0 < dr_threads dr)%N
     /\ (1 <= dr_batchsize dr <= 2 ^ 53)%N
     /\ blank_set (dr_init dr) /\ unique_names (dr_init dr)
     /\ ss_weight (dr_init dr) = f64_ofZ (Z.of_N (dr_batchsize dr))
     /\ List.Forall succeeded (sv_workers (double_run dr alone))
     /\ Forall2 (history (G := Minstd D64) dr) (below (dr_batchsize dr)) hs
     /\ (forall surface, Zsum (map (crossings surface) hs) <= 94906265)%Z.
Proof.
  split; [exact (three_histories sample_libm (Minstd D64))|].
  destruct double_few as (dr & hs & E & Fh & Few & W). exists dr, hs.
  destruct (double_created dr E) as (B & U & Eb & Et).
  destruct double_differs as (dr' & E' & S1 & _).
  assert (dr' = dr) as -> by (rewrite E in E'; symmetry in E'; now inversion E').
  split; [exact E|]. rewrite Et. split; [rewrite Eb; lia|]. split; [reflexivity|].
  split; [rewrite Eb; lia|]. split; [exact B|]. split; [exact U|]. split; [rewrite Eb; exact W|].
  split; [now apply all_succeeded_spec|]. split; [exact Fh|exact Few].
Qed.
