(** Properties C79-C81: bins, random numbers and printed statistics in binary64. *)
From Coq Require Import Bool String List ZArith NArith Reals Lra Lia SpecFloat.
From Verif Require Import Model.Num Model.Outcome Model.Xml Model.Std Model.Rng Model.Point Model.Types
  Model.Bins Model.Particle Model.Estimator Model.Transport Model.Driver
  Spec.TextExt Spec.DoubleSpec Spec.BinsSpec Spec.EstimatorSpec Spec.CountSpec
  Spec.HistorySpec Spec.SolverSpec Proofs.DoubleBins Proofs.DoubleRandom Proofs.DoubleStats Proofs.DoubleRun Proofs.RngProofs
  Proofs.SampleDouble Proofs.IdealLibm.
Import ListNotations.
Local Open Scope string_scope.
Local Open Scope R_scope.

(** C79: in doubles, a linspace or logspace element with up to 2^48 bins, whose width is
    not subnormal and whose span does not overflow, sorts every value that is not NaN
    into one of its bins: values below the lower bound, and only these, into the first,
    values of at least the upper bound into the last, greater values never into lower
    bins, and every finite value at most one bin from where exact arithmetic sorts it.
    Rounding can put a value below the upper bound into the overflow bin; a subnormal
    width can put it outside the array; an overflowing span or a NaN is undefined. *)
Theorem C79_linspace :
  forall (L : Libm) (X : Ext (F64 L)) (nd : node) (n : N) (lo hi : spec_float),
    n_name nd = "linspace" ->
    as_ullong X (n_attr nd "bins") = n ->
    as_double X (n_attr nd "min") = lo ->
    as_double X (n_attr nd "max") = hi ->
    is_double lo -> is_double hi -> finite lo -> finite hi ->
    (1 <= n <= 2 ^ 48)%N ->
    powerRZ 2 (-1021) <= (value hi - value lo) / IZR (Z.of_N n) ->
    value hi - value lo <= powerRZ 2 1023 ->
    exists b,
      bins_create X nd = Ok b
      /\ bins_size b = (n + 2)%N
      /\ (forall v, is_double v -> v <> S754_nan -> exists i,
            bins_index b v = Ok i /\ (i < bins_size b)%N
            /\ (i = 0%N <-> SFltb v lo = true) /\ (SFleb hi v = true -> i = n + 1)%N)
      /\ (forall v w i j, is_double v -> is_double w -> SFleb v w = true ->
            bins_index b v = Ok i -> bins_index b w = Ok j -> (i <= j)%N)
      /\ (forall v i, is_double v -> finite v -> bins_index b v = Ok i ->
            let exact := N.of_nat (count_le (lin_boundary (value lo) (value hi) n)
                                            (S (N.to_nat n)) (value v)) in
            (i <= exact + 1)%N /\ (exact <= i + 1)%N).
Proof. exact C79_linspace_proof. Qed.
Print Assumptions C79_linspace.
Theorem C79_logspace :
  forall (L : Libm) (X : Ext (F64 L)) (nd : node) (n : N) (base lo hi : spec_float),
    n_name nd = "logspace" ->
    as_ullong X (n_attr nd "bins") = n ->
    as_double_def X (n_attr nd "base") (f64_ofZ 10) = base ->
    as_double X (n_attr nd "min") = lo ->
    as_double X (n_attr nd "max") = hi ->
    is_double lo -> is_double hi -> finite lo -> finite hi ->
    (1 <= n <= 2 ^ 48)%N ->
    powerRZ 2 (-1021) <= (value hi - value lo) / IZR (Z.of_N n) ->
    value hi - value lo <= powerRZ 2 1023 ->
    let exponent v := SFdiv prec64 emax64 (l_log L v) (l_log L base) in
    exists b,
      bins_create X nd = Ok b
      /\ bins_size b = (n + 2)%N
      /\ (forall v, is_double (exponent v) -> exponent v <> S754_nan -> exists i,
            bins_index b v = Ok i /\ (i < bins_size b)%N
            /\ (i = 0%N <-> SFltb (exponent v) lo = true)
            /\ (SFleb hi (exponent v) = true -> i = n + 1)%N)
      /\ (forall v w i j, is_double (exponent v) -> is_double (exponent w) ->
            SFleb (exponent v) (exponent w) = true ->
            bins_index b v = Ok i -> bins_index b w = Ok j -> (i <= j)%N).
Proof. exact C79_logspace_proof. Qed.
Print Assumptions C79_logspace.
Theorem C79_overflow_bin_refuted :
  forall L : Libm, exists (X : Ext (F64 L)) (nd : node) (b : bins (F64 L)) (v : spec_float) (i : N),
  let hi := as_double X (n_attr nd "max") in
  n_name nd = "linspace" /\ bins_create X nd = Ok b /\ is_double v
  /\ SFltb v hi = true /\ bins_index b v = Ok i /\ (i = bins_size b - 1)%N
  (* four bins on [0, 1): the bin above is the one that values of at least 1 get *)
  /\ bins_index b hi = Ok i.
Proof. exact C79_overflow_bin_refuted_proof. Qed.
Print Assumptions C79_overflow_bin_refuted.
Theorem C79_outside_refuted :
  forall L : Libm, exists (X : Ext (F64 L)) (nd : node) (b : bins (F64 L)) (v : spec_float) (i : N),
  n_name nd = "linspace" /\ bins_create X nd = Ok b /\ is_double v /\ finite v
  /\ bins_index b v = Ok i /\ (bins_size b <= i)%N.
Proof. exact C79_outside_refuted_proof. Qed.
Print Assumptions C79_outside_refuted.
Theorem C79_undefined_refuted :
  forall L : Libm, exists (X : Ext (F64 L)) (nd : node) (b : bins (F64 L)) (v : spec_float),
  n_name nd = "linspace" /\ bins_create X nd = Ok b /\ is_double v /\ finite v
  /\ bins_index b v = UB.
Proof. exact C79_undefined_refuted_proof. Qed.
Print Assumptions C79_undefined_refuted.
Theorem C79_not_a_number :
  forall (L : Libm) (X : Ext (F64 L)) (nd : node) (b : bins (F64 L)),
  n_name nd = "linspace" -> bins_create X nd = Ok b -> bins_index b S754_nan = UB.
Proof. exact C79_not_a_number_proof. Qed.
Print Assumptions C79_not_a_number.

Example C79_case :
  let X := text_ext D64 [] in
  let linear := lone (leaf "linspace" [("bins", "4"); ("min", "-1"); ("max", "1.5")]) in
  let decades := lone (leaf "logspace" [("bins", "10"); ("min", "-3"); ("max", "7")]) in
  (exists lo hi,
     n_name linear = "linspace" /\ as_ullong X (n_attr linear "bins") = 4%N
     /\ as_double X (n_attr linear "min") = lo /\ as_double X (n_attr linear "max") = hi
     /\ is_double lo /\ is_double hi /\ finite lo /\ finite hi
     /\ powerRZ 2 (-1021) <= (value hi - value lo) / IZR (Z.of_N 4)
     /\ value hi - value lo <= powerRZ 2 1023)
  /\ (exists lo hi base v,
     n_name decades = "logspace" /\ as_ullong X (n_attr decades "bins") = 10%N
     /\ as_double_def X (n_attr decades "base") (f64_ofZ 10) = base
     /\ as_double X (n_attr decades "min") = lo /\ as_double X (n_attr decades "max") = hi
     /\ is_double lo /\ is_double hi /\ finite lo /\ finite hi
     /\ powerRZ 2 (-1021) <= (value hi - value lo) / IZR (Z.of_N 10)
     /\ value hi - value lo <= powerRZ 2 1023
     /\ let e := SFdiv prec64 emax64 (l_log sample_libm v) (l_log sample_libm base) in
        is_double e /\ e <> S754_nan /\ SFltb lo e = true /\ SFltb e hi = true).
Proof.
  assert (S : powerRZ 2 (-1021) <= / 2).
  { change (powerRZ 2 (-1021)) with (/ 2 ^ Pos.to_nat 1021).
    apply Rinv_le_contravar; [lra|]. rewrite <- (pow_1 2) at 1. apply Rle_pow; [lra|].
    apply Pos2Nat.is_pos. }
  assert (B : 16 <= powerRZ 2 1023).
  { change (powerRZ 2 1023) with (2 ^ Pos.to_nat 1023). replace 16 with (2 ^ 4) by ring.
    apply Rle_pow; [lra|]. change 4%nat with (Pos.to_nat 4). apply Pos2Nat.inj_le. lia. }
  assert (V : value (f64_ofZ (-1)) = -1 /\ value (f64_dec 15 (-1)) = 3 / 2
    /\ value (f64_ofZ (-3)) = -3 /\ value (f64_ofZ 7) = 7).
  { set (a := f64_ofZ (-1)). set (b := f64_dec 15 (-1)). set (c := f64_ofZ (-3)).
    set (d := f64_ofZ 7). vm_compute in a, b, c, d. subst a b c d. unfold value. simpl.
    repeat split; lra. }
  destruct V as (V1 & V2 & V3 & V4). cbv zeta. split.
  - exists (f64_ofZ (-1)), (f64_dec 15 (-1)).
    split; [reflexivity|]. split; [reflexivity|].
    split; [vm_compute; reflexivity|]. split; [vm_compute; reflexivity|].
    split; [vm_compute; reflexivity|]. split; [vm_compute; reflexivity|].
    split; [vm_compute; exact I|]. split; [vm_compute; exact I|].
    rewrite V1, V2. simpl IZR. lra.
  - exists (f64_ofZ (-3)), (f64_ofZ 7), (f64_ofZ 10), (f64_ofZ 10).
    split; [reflexivity|]. split; [reflexivity|]. split; [vm_compute; reflexivity|].
    split; [vm_compute; reflexivity|]. split; [vm_compute; reflexivity|].
    split; [vm_compute; reflexivity|]. split; [vm_compute; reflexivity|].
    split; [vm_compute; exact I|]. split; [vm_compute; exact I|].
    rewrite V3, V4. simpl IZR. split; [lra|]. split; [lra|].
    split; [vm_compute; reflexivity|]. split; [vm_compute; discriminate|].
    split; vm_compute; reflexivity.
Qed.

(** C80: in doubles, a uniform number is never closer to zero or one than 2^-32 and never
    further than 2^-51 from the number that exact arithmetic gives for the same state. So
    the logarithm behind a flight length is never that of zero: the length is never NaN or
    negative, and for cross sections from 2^-900 to 2^900 it is finite and between 2^-34
    and 24 mean free paths. An isotropic direction has finite components at most one in
    size and unit length up to rounding. *)
Theorem C80_uniform :
  forall (L : Libm) (s : rst (Minstd (F64 L))),
  let u := fst (runif (Minstd (F64 L)) s) in
  is_double u /\ finite u /\ powerRZ 2 (-32) <= value u <= 1 - powerRZ 2 (-32).
Proof. exact C80_uniform_proof. Qed.
Print Assumptions C80_uniform.
Theorem C80_close :
  forall (L : Libm) (s : mstate) (r : R),
  fst (runif (Minstd XRa) s) = Fin r ->
  Rabs (value (fst (runif (Minstd (F64 L)) s)) - r) <= powerRZ 2 (-51).
Proof. exact C80_close_proof. Qed.
Print Assumptions C80_close.
Theorem C80_flight_exact :
  forall (s : rst (Minstd XRa)) (sigma : R), 0 < sigma ->
  exists d, fst (exponential (Minstd XRa) (Fin sigma : num XRa) s) = Fin d
  /\ powerRZ 2 (-32) <= d * sigma <= 23.
Proof. exact C80_flight_exact_proof. Qed.
Print Assumptions C80_flight_exact.
Theorem C80_flight :
  forall (L : Libm) (s : rst (Minstd (F64 L))) (sigma : spec_float),
  log_accurate L -> is_double sigma -> finite sigma -> 0 < value sigma ->
  let d := fst (exponential (Minstd (F64 L)) sigma s) in
  is_double d /\ d <> S754_nan /\ SFleb (S754_zero false) d = true
  /\ (powerRZ 2 (-900) <= value sigma <= powerRZ 2 900 ->
      finite d /\ powerRZ 2 (-34) <= value d * value sigma <= 24).
Proof. exact C80_flight_proof. Qed.
Print Assumptions C80_flight.
Theorem C80_isotropic :
  forall (L : Libm) (delta : R) (s : rst (Minstd (F64 L))),
  bounded_turn L delta ->
  let d := fst (dir_isotropic (Minstd (F64 L)) s) in
  let x := value (px d) in let y := value (py d) in let z := value (pz d) in
  is_double (px d) /\ is_double (py d) /\ is_double (pz d)
  /\ finite (px d) /\ finite (py d) /\ finite (pz d)
  /\ Rabs x < 1 /\ Rabs y <= 1 /\ Rabs z <= 1
  /\ Rabs (x * x + y * y + z * z - 1) <= delta + powerRZ 2 (-49).
Proof. exact C80_isotropic_proof. Qed.
Print Assumptions C80_isotropic.

Example C80_case :
  log_accurate ideal_libm /\ bounded_turn ideal_libm (4 * powerRZ 2 (-53))
  /\ (forall s : mstate, exists r, fst (runif (Minstd XRa) s) = Fin r)
  /\ is_double (f64_ofZ 1) /\ finite (f64_ofZ 1)
  /\ powerRZ 2 (-900) <= value (f64_ofZ 1) <= powerRZ 2 900.
Proof.
  split; [exact ideal_log|]. split; [exact ideal_turn|].
  split; [intros s; destruct (minstd_open s) as (u & E & _); now exists u|].
  split; [vm_compute; reflexivity|]. split; [vm_compute; exact I|].
  assert (V : value (f64_ofZ 1) = 1).
  { set (a := f64_ofZ 1). vm_compute in a. subst a. unfold value. simpl. lra. }
  rewrite V. split.
  - change (powerRZ 2 (-900)) with (/ 2 ^ Pos.to_nat 900). rewrite <- Rinv_1.
    apply Rinv_le_contravar; [lra|]. apply pow_R1_Rle. lra.
  - change (powerRZ 2 900) with (2 ^ Pos.to_nat 900). apply pow_R1_Rle. lra.
Qed.

(** C81: the mean and standard deviation printed for a bin, in doubles. While the square of
    the number of crossings is at most 2^53 both are finite, the deviation is not
    negative, the mean is the exact one up to one rounding, and the deviation the exact
    one up to 2^-24 of the root of the sum of squares over the number of histories. With
    more crossings the radicand can be negative: 379625063 histories that cross a surface
    once each print NaN instead of zero. *)
Theorem C81_statistics :
  forall (L : Libm) (G : Rng (F64 L)) (surface : nat) (hs : list (list (particle (F64 L) G)))
    (s s' : scorable (F64 L)) (i : nat),
  counted surface hs s s' -> (i < length (sc_scores s))%nat -> length (sc_squares s) = length (sc_scores s) ->
  let counts := map (bin_crossings (sc_bins s) surface i) hs in
  let total := Zsum counts in
  let squares := Zsum (map (fun c => c * c)%Z counts) in
  let n := Z.of_nat (length hs) in
  (1 <= n <= 2 ^ 53)%Z -> (squares <= 2 ^ 53)%Z -> (total * total <= 2 ^ 53)%Z ->
  exists mean deviation,
    nth_error (sc_means s' (f64_ofZ n)) i = Some mean
    /\ nth_error (sc_stddevs s' (f64_ofZ n)) i = Some deviation
    /\ is_double mean /\ finite mean /\ is_double deviation /\ finite deviation
    /\ 0 <= value deviation
    /\ Rabs (value mean - IZR total / IZR n) <= powerRZ 2 (-53) * (IZR total / IZR n)
    /\ Rabs (value deviation - sqrt (IZR squares - IZR total * IZR total / IZR n) / IZR n)
       <= powerRZ 2 (-24) * (sqrt (IZR squares) / IZR n).
Proof. exact C81_statistics_proof. Qed.
Print Assumptions C81_statistics.
Theorem C81_run :
  forall (L : Libm) (G : Rng (F64 L)) (dr : @driver (F64 L)) fuel schedule,
  (dr_batchsize dr + dr_threads dr <= 2 ^ 64)%N -> (0 < dr_threads dr)%N ->
  (1 <= dr_batchsize dr <= 2 ^ 53)%N ->
  blank_set (dr_init dr) -> unique_names (dr_init dr) ->
  ss_weight (dr_init dr) = f64_ofZ (Z.of_N (dr_batchsize dr)) ->
  let sv := run_schedule (G := G) dr fuel (solver_start dr 0) schedule in
  List.Forall succeeded (sv_workers sv) ->
  exists r hs, solver_result dr sv = Ok r
    /\ Forall2 (history (G := G) dr) (below (dr_batchsize dr)) hs
    (* no surface is crossed more than 94906265 times in all *)
    /\ ((forall surface, Zsum (map (crossings surface) hs) <= 94906265)%Z ->
        forall e, In e (ss_estimators r) ->
        List.Forall (fun m => is_double m /\ finite m) (sc_means (es_scorable e) (ss_weight r))
        /\ List.Forall (fun d => is_double d /\ finite d /\ 0 <= value d)%R
             (sc_stddevs (es_scorable e) (ss_weight r))).
Proof. exact C81_run_proof. Qed.
Print Assumptions C81_run.
Theorem C81_nan_refuted :
  forall (L : Libm) (G : Rng (F64 L)), exists (surface : nat) (hs : list (list (particle (F64 L) G)))
    (b : particle_bins (F64 L)) (s' : scorable (F64 L)),
  length hs = N.to_nat 379625063
  /\ (forall h, In h hs -> crossings surface h = 1%Z)
  /\ few_crossings (2 ^ 53) hs
  /\ counted surface hs (new_scorable "" b) s'
  /\ sc_stddevs s' (f64_ofZ (Z.of_nat (length hs))) = [S754_nan].
Proof. exact C81_nan_refuted_proof. Qed.
Print Assumptions C81_nan_refuted.

Example C81_case :
  (exists (hs : list (list (particle D64 (Minstd D64)))) b s',
     map (bin_crossings b 0 0) hs = [1; 2; 0]%Z
     /\ length (sc_scores (new_scorable (A := D64) "" b)) = 1%nat
     /\ length (sc_squares (new_scorable (A := D64) "" b)) = 1%nat
     /\ counted 0 hs (new_scorable "" b) s')
  /\ exists (dr : @driver D64) hs, double_driver = Ok dr
     /\ (dr_batchsize dr + dr_threads dr <= 2 ^ 64)%N /\ (0 < dr_threads dr)%N
     /\ (1 <= dr_batchsize dr <= 2 ^ 53)%N
     /\ blank_set (dr_init dr) /\ unique_names (dr_init dr)
     /\ ss_weight (dr_init dr) = f64_ofZ (Z.of_N (dr_batchsize dr))
     /\ List.Forall succeeded (sv_workers (double_run dr alone))
     /\ Forall2 (history (G := Minstd D64) dr) (below (dr_batchsize dr)) hs
     /\ (forall surface, Zsum (map (crossings surface) hs) <= 94906265)%Z.
Proof.
  split; [exact (three_histories sample_libm (Minstd D64))|].
  destruct double_few as (dr & hs & E & Fh & Few & W). exists dr, hs.
  destruct (double_created dr E) as (B & U & Eb & Et).
  destruct double_differs as (dr' & E' & S1 & _).
  assert (dr' = dr) as -> by (rewrite E in E'; symmetry in E'; now inversion E').
  split; [exact E|]. rewrite Et. split; [rewrite Eb; lia|]. split; [reflexivity|].
  split; [rewrite Eb; lia|]. split; [exact B|]. split; [exact U|]. split; [rewrite Eb; exact W|].
  split; [now apply all_succeeded_spec|]. split; [exact Fh|exact Few].
Qed.
